(** C78: rounding in the character n-gram model. *)
From Coq Require Import ZArith Reals Lra Lia.
From Flocq Require Import Core Relative.
From Verif Require Import Base Field FieldR LmModel HubModel PpmModel NgramModel NgramSpec NgramProps LogModel LogProps RoundModel RoundSpec
  RoundProofs RoundProps SingleCountModel PpmRoundProofs2 NgramRoundModel NgramRoundSpec NgramRoundProofs.
Local Open Scope R_scope.

(** * Scores *)

(** Whenever the exact model gives a score [p], the code gives a cost that stands for [p] up to one
    error of the weights and one of the addition per state visited (the order of the state): the cost
    is infinite exactly if [p] is 0. *)
Theorem C78_scores : forall plus u B d G c n rank s sym (p : R),
  plus_accurate u B plus -> 0 <= u -> 0 <= d -> 0 <= G ->
  model_for d G c n -> backs_off_within (ng_fst n) rank ->
  let k := S (rank s) in
  INR k * (d + u) <= 1 -> INR k * G + 1 <= B ->
  ng_score n s sym = Ok p ->
  exists x, c_score plus c s sym = Ok x /\ stands_for (INR k * (d + u)) x p.
Proof.
  intros plus u B d G c n rank s sym p Hp Hu Hd HG (Hf & Hst & Hsy & Ho & Hun) Hr k HE HB Hs.
  unfold ng_score in Hs. unfold c_score, c_sym_label. rewrite Hsy, Ho.
  destruct (label_cost_for plus u B d G Hp Hu Hd HG _ _ Hf rank Hr n s (sym_label n sym) p eq_refl) as (x & X1 & X2 & _).
  - rewrite Nat.add_1_r. exact HE.
  - rewrite Nat.add_1_r. exact HB.
  - exact Hs.
  - exists x. rewrite Nat.add_1_r in X2. split; [exact X1 | exact X2].
Qed.

(** * Answers *)

Lemma sums_pos K ps : Forall (fun p => p = 0 \/ exp (- K) <= p <= exp K) ps -> rsum ps <= INR (length ps) * exp K.
Proof.
  induction 1 as [|p l H _ IH]; [unfold rsum; cbn; lra|]. rewrite rsum_cons. cbn [length]. rewrite S_INR.
  pose proof (exp_pos K). destruct H as [->|H]; lra.
Qed.

(** Whenever the exact model answers with numbers [ps], the code answers with the same symbols in
    the same order, with probabilities that are those up to a factor: twice the error of the scores,
    and one rounding per symbol for the renormalisation; and they sum to one up to the same factor. *)
Theorem C78_answers : forall plus mc u B d G um BM N c n rank s sc (ps : list R),
  plus_accurate u B plus -> 0 <= u -> 0 <= d -> 0 <= G -> accurate um BM mc -> 0 <= um <= / 2 -> 0 <= N ->
  model_for d G c n -> backs_off_within (ng_fst n) rank ->
  let k := S (rank (check_state n s)) in
  let t := S (length (tl (ng_syms n))) in
  let e := 2 * (INR k * (d + u)) + (INR t + 3) * um in
  INR t <= exp N -> e <= 1 -> INR k * G + 1 <= B -> 2 * (INR k * G) + N + 1 <= BM ->
  ng_extract n s = Ok sc -> map snd (sc_entries sc) = map (Val (F := R_field)) ps ->
  exists vs, c_extract plus mc c s = Ok (combine (map fst (sc_entries sc)) (map (Val (F := R_field)) vs)) /\
    Forall2 (close e) ps vs /\ close e 1 (rsum vs).
Proof.
  intros plus mc u B d G um BM N c n rank s sc ps Hp Hu Hd HG Hm Hum HN (Hf & Hst & Hsy & Ho & Hun) Hr k t e Ht He HB HBM Hx Hv.
  set (E0 := INR k * (d + u)) in *. set (K := INR k * G) in *.
  assert (PT : 0 <= INR t) by apply pos_INR.
  assert (PE : 0 <= E0) by (apply Rmult_le_pos; [apply pos_INR | lra]).
  assert (PK : 0 <= K) by (apply Rmult_le_pos; [apply pos_INR | lra]).
  assert (TU : 0 <= INR t * um) by (apply Rmult_le_pos; lra).
  unfold e in He.
  unfold ng_extract in Hx. unfold c_extract.
  assert (EC : c_check_state c s = check_state n s) by (unfold c_check_state, check_state; rewrite Hst, Hun; reflexivity).
  rewrite EC, Hsy. set (s' := check_state n s) in *.
  assert (E1 : INR (rank s' + 1) * (d + u) <= 1). { rewrite Nat.add_1_r. fold k. fold E0. lra. }
  assert (B1 : INR (rank s' + 1) * G + 1 <= B). { rewrite Nat.add_1_r. fold k. fold K. lra. }
  destruct (label_cost n s' 0) as [p0| | |] eqn:E00; try discriminate. cbn [bind] in Hx.
  destruct (label_costs n s' (map fst (tl (ng_syms n)))) as [qs| | |] eqn:Eq; try discriminate. cbn [bind] in Hx.
  destruct (label_cost_for plus u B d G Hp Hu Hd HG _ _ Hf rank Hr n s' 0%Z p0 eq_refl E1 B1 E00) as (c0 & C1 & C2).
  destruct (label_costs_for plus u B d G Hp Hu Hd HG _ _ Hf rank Hr n s' _ qs eq_refl E1 B1 Eq) as (cs & D1 & D2).
  rewrite C1, D1. cbn [bind].
  rewrite Nat.add_1_r in C2, D2.
  assert (exists raw : list R, raw = (p0 : R) :: qs) as [raw Eraw] by (eexists; reflexivity).
  assert (SF : Forall2 (so_far u d G (S (rank s'))) (c0 :: cs) raw) by (rewrite Eraw; constructor; assumption). clear C2 D2.
  assert (Len : length (c0 :: cs) = t /\ length raw = t).
  { assert (L : forall labels cs, c_label_costs plus (cn_fst c) s' labels = Ok cs -> length cs = length labels).
    { induction labels as [|l r IH]; cbn [c_label_costs]; intros cs' X; [injection X as <-; reflexivity|].
      destruct (c_label_cost _ _ _ _) in X; try discriminate. cbn [bind] in X.
      destruct (c_label_costs plus (cn_fst c) s' r) as [r'| | |]; try discriminate. cbn [bind] in X. injection X as <-. cbn [length].
      rewrite (IH _ eq_refl). reflexivity. }
    split.
    - cbn [length]. rewrite (L _ _ D1), map_length. reflexivity.
    - etransitivity; [symmetry; exact (f2_length _ _ _ SF)|]. cbn [length]. rewrite (L _ _ D1), map_length. reflexivity. }
  destruct Len as [Lc Lq].
  remember (c0 :: cs) as ccs eqn:Ecc.
  assert (Sm : @softmax_renormalize R_field raw = Ok (map (fun p => @num_div R_field p (rsum raw)) raw)).
  { rewrite Eraw. unfold softmax_renormalize. f_equal. change (fold_left fadd qs p0) with (fold_left Rplus qs p0).
    replace (fold_left Rplus qs p0) with (rsum (p0 :: qs)); [reflexivity|]. rewrite rsum_cons. clear. revert p0.
    induction qs as [|q qs IH]; intro p0; [unfold rsum; cbn; ring|]. cbn [fold_left]. rewrite <- IH, rsum_cons. ring. }
  assert (Hx' : (let* probs := @softmax_renormalize R_field raw in
      Ok (LmScores (Val f1) (combine ([] :: map (find_symbol (ng_syms n)) (map fst (tl (ng_syms n)))) probs))) = Ok sc)
    by (rewrite Eraw; exact Hx).
  rewrite Sm in Hx'. cbn [bind] in Hx'. injection Hx' as <-. cbn [sc_entries] in *.
  set (keys := [] :: map (find_symbol (ng_syms n)) (map fst (tl (ng_syms n)))) in *.
  assert (Lk : length keys = t) by (unfold keys, t; cbn [length]; rewrite !map_length; reflexivity).
  assert (Cm : forall (A D : Type) (a : list A) (b : list D), length a = length b -> map fst (combine a b) = a /\ map snd (combine a b) = b).
  { intros A D. induction a as [|x a IH]; intros [|y b] Hl; try discriminate; [split; reflexivity|].
    cbn [combine map fst snd]. destruct (IH b) as [I1 I2]; [cbn in Hl; lia|]. rewrite I1, I2. auto. }
  destruct (Cm _ _ keys (map (fun p => @num_div R_field p (rsum raw)) raw)) as [K1 K2]; [rewrite map_length; transitivity t; [exact Lk | symmetry; exact Lq]|].
  assert (Hv' : map (fun p => @num_div R_field p (rsum raw)) raw = map (Val (F := R_field)) ps) by (rewrite <- Hv; symmetry; exact K2).
  clear Hv.
  assert (Sz : Forall (sized K) raw).
  { clear - SF. induction SF as [|x y l l' H _ IH]; constructor; [apply H | exact IH]. }
  assert (Lw : Forall (low K) raw).
  { eapply Forall_impl; [|exact Sz]. intros p [H|H]; [left; exact H | right; apply H]. }
  assert (NZ : rsum raw <> 0).
  { intro X. clear - Hv' X Eraw. revert Hv' X. generalize (rsum raw) as tot. intros tot Hv' X.
    destruct raw as [|r raw']; [discriminate|]. destruct ps as [|q ps]; [discriminate|]. cbn [map] in Hv'.
    injection Hv' as Hq _. unfold num_div in Hq. assert (Y : @feqb R_field tot f0 = true) by (apply (@feqb_eq R_field); exact X).
    rewrite Y in Hq. discriminate. }
  assert (PosT : 0 < rsum raw) by (pose proof (rsum_nonneg K raw Lw); lra).
  assert (TopT : rsum raw <= exp (K + N)).
  { eapply Rle_trans; [apply (sums_pos K); exact Sz|]. rewrite Lq, Rplus_comm, exp_plus. apply Rmult_le_compat_r; [left; apply exp_pos | exact Ht]. }
  assert (Eps : ps = map (fun p => p / rsum raw) raw).
  { clear - Hv' NZ. revert Hv' NZ. generalize (rsum raw) as tot. intros tot Hv' NZ. revert ps Hv'.
    induction raw as [|p raw IH]; intros [|q ps] H; try discriminate; [reflexivity|]. cbn [map] in *. injection H as H1 H2.
    rewrite (IH ps H2). unfold num_div in H1. destruct (@feqb R_field tot f0) eqn:F; [apply feqb_R in F; contradiction|].
    injection H1 as <-. reflexivity. }
  assert (SFs : Forall2 (stands_for E0) ccs raw).
  { clear - SF. induction SF as [|x y l l' H _ IH]; constructor; [apply H | exact IH]. }
  pose proof (sf_renorm mc um BM Hm (proj1 Hum) E0 K (K + N) ccs raw PE ltac:(lra) ltac:(lra) SFs Lw
    ltac:(rewrite Lc; lra) (conj PosT TopT)) as RN.
  rewrite Lc, <- Eps in RN.
  assert (ER : r_softmax mc ccs = Ok (map (fun x => r_sub mc x (r_total mc ccs)) ccs)) by (rewrite Ecc; reflexivity).
  assert (LP : Forall (fun p => low (2 * K + N) p /\ p <= 1) ps).
  { rewrite Eps. apply Forall_forall. intros q Hq. apply in_map_iff in Hq. destruct Hq as (p & <- & Hp').
    pose proof (rsum_in K raw p Lw Hp') as Hle. rewrite Forall_forall in Lw. pose proof (Lw p Hp') as LL.
    assert (I : 0 < / rsum raw) by (apply Rinv_0_lt_compat; exact PosT). split.
    - destruct LL as [->|LL]; [left; unfold Rdiv; ring|]. right.
      replace (- (2 * K + N)) with (- K + - (K + N)) by ring. rewrite exp_plus. unfold Rdiv.
      apply Rmult_le_compat; try (left; apply exp_pos); [exact LL|]. rewrite exp_Ropp. apply Rinv_le_contravar; assumption.
    - apply Rmult_le_reg_r with (rsum raw); [exact PosT|]. unfold Rdiv. rewrite Rmult_assoc, Rinv_l, Rmult_1_r, Rmult_1_l by exact NZ. exact Hle. }
  assert (S1 : rsum ps = 1) by (rewrite Eps, rsum_div; field; exact NZ).
  assert (Out : forall (xs : list cost) (qs' : list R), Forall2 (stands_for (2 * E0 + (INR t + 1) * um)) xs qs' ->
    Forall (fun p => low (2 * K + N) p /\ p <= 1) qs' ->
    exists vs, map (r_exp_neg mc) xs = map (Val (F := R_field)) vs /\ Forall2 (close e) qs' vs /\ close e (rsum qs') (rsum vs)).
  { induction 1 as [|x q xs qs' H1 H2 IH]; intro Hl.
    - exists []. split; [reflexivity|]. split; [constructor|]. unfold close, rsum. cbn. lra.
    - apply Forall_cons_iff in Hl. destruct Hl as [[Q0 Q1] Q2]. destruct (IH Q2) as (vs & V1 & V2 & V3).
      destruct (sf_exp mc um BM Hm (proj1 Hum) _ (2 * K + N) x q H1) as (v & W1 & W2).
      + apply (low_sized (2 * K + N)); [lra | exact Q0 |]. eapply Rle_trans; [exact Q1|]. rewrite <- exp_0. apply exp_le. lra.
      + split; [|lra]. apply Rplus_le_le_0_compat; [lra|]. apply Rmult_le_pos; lra.
      + lra.
      + lra.
      + exists (v :: vs). cbn [map]. rewrite W1, V1. split; [reflexivity|].
        replace (2 * E0 + (INR t + 1) * um + 2 * um) with e in W2 by (unfold e; ring).
        split; [constructor; assumption|]. rewrite !rsum_cons. apply close_add; assumption. }
  destruct (Out _ _ RN LP) as (vs & V1 & V2 & V3). rewrite S1 in V3. exists vs. split; [|split; [exact V2 | exact V3]].
  rewrite ER. cbn [bind]. rewrite V1. exact (f_equal (fun z => Ok (combine z (map (Val (F := R_field)) vs))) (eq_sym K1)).
Qed.

(** The number of back-offs is bounded in every automaton that passes the checks of sfst. *)
Theorem C78_orders : forall f : list (@pstate R_field), canonical f -> exists rank, backs_off_within f rank.
Proof.
  intros f C. destruct (can_acyclic f C) as [rank Hr]. exists rank. intros s st a Hs Ha L0 _.
  destruct a as [l g b]. cbn [a_label a_next] in *. subst l. apply (Hr s st g b); [|exact Ha].
  unfold vgetZ in Hs. destruct (Z.ltb_spec s 0); [discriminate|]. split; [lia|].
  unfold vget in Hs. destruct (nth_error f (Z.to_nat s)) eqn:E; [|discriminate]. injection Hs as <-. reflexivity.
Qed.

(** * Exact arithmetic *)

(** With exact logarithms the cost is the negative logarithm of the score of [NgramModel]. *)
Theorem C78_exact : forall G c n rank s sym (p : R), 0 <= G ->
  model_for 0 G c n -> backs_off_within (ng_fst n) rank -> ng_score n s sym = Ok p ->
  (p = 0 /\ c_score Rplus c s sym = Ok PInf) \/ (0 < p /\ c_score Rplus c s sym = Ok (Fin (- ln p))).
Proof.
  intros G c n rank s sym p HG Hm Hr Hs.
  destruct (C78_scores Rplus 0 (INR (S (rank s)) * G + 1) 0 G c n rank s sym p) as (x & X1 & X2); try assumption; try lra.
  - intros x y _ _. rewrite Rminus_diag_eq, Rabs_R0 by reflexivity. lra.
  - destruct x as [x| | |]; cbn [stands_for] in X2; try contradiction.
    + right. destruct X2 as [P C]. unfold close in C. rewrite Rplus_0_r, Rmult_0_r, Ropp_0, exp_0, Rmult_1_r in C.
      split; [exact P|]. rewrite X1. f_equal. f_equal. rewrite <- (Ropp_involutive x). f_equal. apply exp_inv.
      rewrite exp_ln by exact P. lra.
    + left. split; [exact X2 | exact X1].
Qed.

(** * Single precision *)

#[local] Instance prec24 : Prec_gt_0 24. Proof. reflexivity. Qed.
Definition float_plus (x y : R) : R := to_single (x + y).

Theorem C78_floats : plus_accurate (/ 2 ^ 15) 201 float_plus.
Proof.
  intros x y Hx Hy. unfold float_plus, to_single. eapply Rle_trans; [apply error_le_half_ulp; typeclasses eauto|].
  apply Rle_trans with (/ 2 * ulp radix2 (FLT_exp (-149) 24) 402).
  - apply Rmult_le_compat_l; [lra|]. apply ulp_le; [typeclasses eauto|typeclasses eauto|].
    rewrite (Rabs_pos_eq 402) by lra. pose proof (Rabs_triang x y). lra.
  - rewrite ulp_neq_0 by lra. unfold cexp. replace (mag radix2 402 : Z) with 9%Z.
    + unfold FLT_exp. change (Z.max (9 - 24) (-149)) with (-15)%Z. change (bpow radix2 (-15)) with (/ 32768).
      rewrite (pow_IZR 2 15). change (2 ^ Z.of_nat 15)%Z with 32768%Z. lra.
    + symmetry. apply mag_unique. rewrite Rabs_pos_eq by lra. simpl. lra.
Qed.

(** In numbers: models of order up to 5 with up to 100000 symbols, whose weights are 0 or within
    exp(40) of 1 and stored without error: every probability is right up to 4 in ten thousand. *)
Theorem C78_in_numbers : forall c n rank s sc (ps : list R),
  model_for 0 40 c n -> backs_off_within (ng_fst n) rank -> (rank (check_state n s) <= 4)%nat ->
  INR (length (tl (ng_syms n))) <= 100000 ->
  ng_extract n s = Ok sc -> map snd (sc_entries sc) = map (Val (F := R_field)) ps ->
  exists vs, c_extract float_plus correctly_rounded c s = Ok (combine (map fst (sc_entries sc)) (map (Val (F := R_field)) vs)) /\
    Forall2 (close (4 / 10000)) ps vs /\ close (4 / 10000) 1 (rsum vs).
Proof.
  intros c n rank s sc ps Hm Hr Hk Hl Hx Hv.
  set (k := S (rank (check_state n s))). set (t := S (length (tl (ng_syms n)))).
  assert (Ik : 1 <= INR k <= 5). { split; [replace 1 with (INR 1) by reflexivity; apply le_INR; unfold k; lia|]. replace 5 with (INR 5) by (cbn; ring). apply le_INR. unfold k. lia. }
  assert (It : 0 <= INR t <= 100001). { split; [apply pos_INR|]. unfold t. rewrite S_INR. lra. }
  assert (P43 : 0 < / 2 ^ 43 <= / 8000000000000).
  { rewrite (pow_IZR 2 43). change (2 ^ Z.of_nat 43)%Z with 8796093022208%Z. lra. }
  assert (P15 : / 2 ^ 15 = / 32768). { rewrite (pow_IZR 2 15). reflexivity. }
  set (e := 2 * (INR k * (0 + / 2 ^ 15)) + (INR t + 3) * / 2 ^ 43).
  assert (He : e <= 4 / 10000).
  { unfold e. rewrite P15. assert ((INR t + 3) * / 2 ^ 43 <= 100004 * / 8000000000000) by (apply Rmult_le_compat; lra). lra. }
  assert (E17 : 131072 <= exp 17).
  { replace 17 with (INR 17) by (rewrite INR_IZR_INZ; reflexivity).
    assert (E : forall k, exp (INR k) = exp 1 ^ k).
    { induction k0 as [|k0 IH]; [cbn [INR pow]; apply exp_0|]. rewrite S_INR, exp_plus, IH. cbn [pow]. ring. }
    rewrite E. apply Rle_trans with (2 ^ 17).
    - rewrite (pow_IZR 2 17). change (2 ^ Z.of_nat 17)%Z with 131072%Z. lra.
    - apply pow_incr. pose proof (exp_ineq1_le 1). lra. }
  destruct (C78_answers float_plus correctly_rounded (/ 2 ^ 15) 201 0 40 (/ 2 ^ 43) 600 17 c n rank s sc ps) as (vs & V1 & V2 & V3);
    try assumption; try lra.
  - exact C78_floats.
  - exact C75_doubles.
  - fold t. lra.
  - fold k t. fold e. lra.
  - fold k. lra.
  - fold k. lra.
  - fold k t in V2, V3. fold e in V2, V3. exists vs. split; [exact V1|].
    assert (Mono : forall p v, 0 <= p -> close e p v -> close (4 / 10000) p v).
    { intros p v P0 C. apply (close_mono e); assumption. }
    split; [|apply Mono; [lra | exact V3]].
    assert (P0 : Forall (fun p => 0 <= p) ps).
    { assert (e0 : 0 < e).
      { unfold e. rewrite P15. assert (0 <= (INR t + 3) * / 2 ^ 43) by (apply Rmult_le_pos; lra). lra. }
      clear - V2 e0. induction V2 as [|p v ps vs [C1 C2] H IH]; constructor; [|exact IH].
      destruct (Rle_or_lt 0 p) as [|Np]; [assumption|]. exfalso.
      assert (exp (- e) < exp e) by (apply exp_increasing; lra). nra. }
    clear - V2 Mono P0. revert P0. induction V2 as [|p v ps vs C H IH]; intro P0; constructor;
      apply Forall_cons_iff in P0; [apply Mono; [apply P0 | exact C] | apply IH; apply P0].
Qed.

(** * The hypotheses are met *)

(** Two states: the letters a (1/2), b (1/4) and the end (1/4) without context, and the context "a"
    that backs off with weight 2/3 and gives a the probability 2/3. *)
Definition two_states : list (@pstate R_field) :=
  [ PState (F := R_field) [Arc (F := R_field) 1 ((/ 2)%R : R) 1; Arc (F := R_field) 2 ((/ 4)%R : R) 0] ((/ 4)%R : R);
    PState (F := R_field) [Arc (F := R_field) 0 ((2 / 3)%R : R) 0; Arc (F := R_field) 1 ((2 / 3)%R : R) 1] (0%R : R) ].
Definition two_syms : list (Z * str) := [(0%Z, [949%Z]); (1%Z, [97%Z]); (2%Z, [98%Z])].
Definition two_model : ngram R_field := Ngram two_states 1 two_syms (-1) 0.
Definition cost_of (p : R) : cost := if Rle_dec p 0 then PInf else Fin (- ln p).
Definition stored (n : ngram R_field) : cngram :=
  CNgram (map (fun st : @pstate R_field => CState (map (fun a : @arc R_field => CArc (a_label a) (cost_of (a_count a)) (a_next a)) (ps_arcs st)) (cost_of (ps_final st)))
    (ng_fst n)) (ng_start n) (ng_syms n) (ng_oov n) (ng_unigram n).

Example C78_hypotheses_met :
  model_for 0 40 (stored two_model) two_model /\
  backs_off_within two_states (fun s => Z.to_nat s) /\
  exists sc, ng_extract two_model 1 = Ok sc /\ map snd (sc_entries sc) = map (Val (F := R_field)) [/ 6; 2 / 3; / 6] /\
  map fst (sc_entries sc) = [[]; [97%Z]; [98%Z]].
Proof.
  assert (W : forall p, p = 0 \/ / 10 <= p <= 1 -> weight_for 0 40 (cost_of p) p).
  { pose proof (exp_ineq1_le 40) as X. intros p [->|[H1 H2]].
    - unfold cost_of. destruct (Rle_dec 0 0); [|lra]. split; [reflexivity | left; reflexivity].
    - unfold cost_of. destruct (Rle_dec p 0); [lra|]. split.
      + apply sf_fin. split; [lra|]. rewrite Rplus_opp_l, Rabs_R0. lra.
      + right. split; [|lra]. rewrite exp_Ropp. eapply Rle_trans; [|exact H1]. apply Rinv_le_contravar; lra. }
  split; [|split].
  - split; [|repeat split]. unfold stored, two_model, two_states. cbn [ng_fst cn_fst map].
    repeat (apply Forall2_cons || apply Forall2_nil); (split; [cbn [cs_arcs ps_arcs map]; repeat (apply Forall2_cons || apply Forall2_nil);
      (split; [reflexivity | split; [reflexivity | apply W; cbn [a_count]; lra]]) | apply W; cbn [ps_final]; lra]).
  - intros s st a Hs Ha L0 Hn. unfold vgetZ in Hs. destruct (Z.ltb_spec s 0); [discriminate|].
    unfold vget in Hs. destruct (Z.to_nat s) as [|[|i]] eqn:E; cbn [nth_error two_states] in Hs;
      [| |destruct i; discriminate]; injection Hs as <-; cbn [ps_arcs In] in Ha; destruct Ha as [<-|[<-|[]]];
      cbn [a_label a_next] in *; try discriminate; cbn; lia.
  - assert (F0 : @feqb R_field 0 f0 = true) by (apply (@feqb_eq R_field); reflexivity).
    assert (F1 : @feqb R_field (/ 4) f0 = false).
    { destruct (@feqb R_field (/ 4) f0) eqn:X; [|reflexivity]. apply feqb_R in X. change (/ 4 = 0) in X. lra. }
    assert (L0 : label_cost two_model 1 0 = @Ok R (/ 4 * (1 * (2 / 3)))).
    { unfold label_cost, final_cost. change (0 =? 0)%Z with true. cbv iota. change (ng_fst two_model) with two_states.
      change (vgetZ two_states 1) with (@Ok (@pstate R_field) (nth 1 two_states (PState (F := R_field) [] (0%R : R)))). cbn [bind].
      match goal with |- context [@feqb ?F ?a ?b] => replace (@feqb F a b) with true by (symmetry; exact F0) end. cbv iota.
      change (S (length two_states)) with 3%nat. cbn [final_loop]. change (ng_fst two_model) with two_states.
      change (ng_backoff two_states 1) with (@Ok (Z * R) (0%Z, 2 / 3)). cbn [bind]. change (0 <=? 0)%Z with true. cbv iota.
      change (vgetZ two_states 0) with (@Ok (@pstate R_field) (nth 0 two_states (PState (F := R_field) [] (0%R : R)))). cbn [bind].
      match goal with |- context [@feqb ?F ?a ?b] => replace (@feqb F a b) with false by (symmetry; exact F1) end. reflexivity. }
    assert (L1 : label_cost two_model 1 1 = @Ok R (1 * (2 / 3))) by reflexivity.
    assert (L2 : label_cost two_model 1 2 = @Ok R (1 * (2 / 3) * / 4)) by reflexivity.
    unfold ng_extract. change (check_state two_model 1) with 1%Z. cbn [ng_syms two_model two_syms tl map fst label_costs].
    rewrite L0, L1, L2. cbn [bind]. unfold softmax_renormalize. cbn [bind]. eexists. split; [reflexivity|].
    cbn [sc_entries]. cbn [map combine fst snd fold_left]. split; [|reflexivity].
    unfold num_div. match goal with |- context [feqb ?t f0] => assert (FT : @feqb R_field t f0 = false) end.
    { match goal with |- ?b = false => destruct b eqn:X end; [|reflexivity]. apply feqb_R in X.
      change (/ 4 * (1 * (2 / 3)) + 1 * (2 / 3) + 1 * (2 / 3) * / 4 = 0) in X. lra. }
    rewrite !FT. match goal with |- [Val ?a; Val ?b; Val ?c] = _ =>
      assert (Ea : a = / 6) by (change (/ 4 * (1 * (2 / 3)) / (/ 4 * (1 * (2 / 3)) + 1 * (2 / 3) + 1 * (2 / 3) * / 4) = / 6); lra);
      assert (Eb : b = 2 / 3) by (change (1 * (2 / 3) / (/ 4 * (1 * (2 / 3)) + 1 * (2 / 3) + 1 * (2 / 3) * / 4) = 2 / 3); lra);
      assert (Ec : c = / 6) by (change (1 * (2 / 3) * / 4 / (/ 4 * (1 * (2 / 3)) + 1 * (2 / 3) + 1 * (2 / 3) * / 4) = / 6); lra) end.
    rewrite Ea, Eb, Ec. reflexivity.
Qed.
