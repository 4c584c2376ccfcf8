(** Rounding errors of the operations on costs. *)
From Coq Require Import Reals Lra Lia Sorted Permutation.
From Verif Require Import Base Field FieldR LmModel HubModel HubSpec HubMix LogModel LogProps RoundModel RoundSpec.
Local Open Scope R_scope.

Lemma exp_le x y : x <= y -> exp x <= exp y.
Proof. intros [H| ->]; [left; apply exp_increasing; exact H | right; reflexivity]. Qed.
Lemma exp_le_inv' x y : exp x <= exp y -> x <= y.
Proof. intros H. destruct (Rle_or_lt x y) as [L|L]; [exact L|]. apply exp_increasing in L. lra. Qed.
Lemma exp_opp_mul x : exp x * exp (- x) = 1.
Proof. rewrite <- exp_plus. replace (x + - x) with 0 by ring. apply exp_0. Qed.

(** Two exponentials: close if the exponents are. *)
Lemma close_exp d p x : 0 < p -> close d p (exp (- x)) <-> Rabs (x + ln p) <= d.
Proof.
  intros Hp. unfold close. rewrite <- (exp_ln p Hp) at 1 2. rewrite <- !exp_plus. split.
  - intros [A B]. apply exp_le_inv' in A. apply exp_le_inv' in B. apply Rabs_le. lra.
  - intro A. assert (- d <= x + ln p <= d) by (unfold Rabs in A; destruct (Rcase_abs _) in A; lra).
    split; apply exp_le; lra.
Qed.

Lemma sf_fin d x p : stands_for d (Fin x) p <-> 0 < p /\ Rabs (x + ln p) <= d.
Proof. cbn [stands_for]. split; intros [A B]; (split; [exact A|]); apply (close_exp d p x A); exact B. Qed.

Lemma sf_mono d d' c p : d <= d' -> stands_for d c p -> stands_for d' c p.
Proof.
  destruct c; try (intros; assumption). rewrite !sf_fin. intros H [A B]. split; [exact A|]. lra.
Qed.

Lemma ln_le' x y : 0 < x -> x <= y -> ln x <= ln y.
Proof. intros H [K| ->]; [left; apply ln_increasing; assumption | lra]. Qed.

Lemma Rabs_range x d : Rabs x <= d -> - d <= x <= d.
Proof. unfold Rabs. destruct (Rcase_abs x); lra. Qed.

Lemma sized_ln L p : 0 < p -> sized L p -> - L <= ln p <= L.
Proof.
  intros Hp [->|[A B]]; [lra|]. split.
  - rewrite <- (ln_exp (- L)). apply ln_le'; [apply exp_pos | exact A].
  - rewrite <- (ln_exp L). apply ln_le'; assumption.
Qed.

Lemma sf_range d L x p : stands_for d (Fin x) p -> sized L p -> d <= 1 -> Rabs x <= L + 1.
Proof.
  rewrite sf_fin. intros [A B] S D. pose proof (sized_ln L p A S). apply Rabs_range in B.
  apply Rabs_le. lra.
Qed.

(** Adding numbers that are close gives numbers that are close. *)
Lemma close_add d p q y z : close d p y -> close d q z -> close d (p + q) (y + z).
Proof. unfold close. intros [A B] [C D]. lra. Qed.

Section Ops.
  Variable m : machine.
  Variables u B : R.
  Hypothesis Hm : accurate u B m.
  Hypothesis Hu : 0 <= u.

  Lemma sf_nls d L a b p q : stands_for d a p -> stands_for d b q -> sized L p -> sized L q ->
    0 <= d <= 1 -> L + 1 <= B -> stands_for (d + u) (r_nls m a b) (p + q).
  Proof.
    intros Ha Hb Sp Sq D HB.
    destruct a as [x| | |], b as [y| | |]; try contradiction.
    - pose proof (sf_range _ _ _ _ Ha Sp ltac:(lra)) as Rx.
      pose proof (sf_range _ _ _ _ Hb Sq ltac:(lra)) as Ry.
      pose proof (acc_sum _ _ _ Hm x y ltac:(lra) ltac:(lra)) as E.
      cbn [r_nls]. cbn [stands_for] in Ha, Hb. destruct Ha as [Pp Ca], Hb as [Pq Cb].
      pose proof (close_add _ _ _ _ _ Ca Cb) as C. pose proof (exp_pos (- x)). pose proof (exp_pos (- y)).
      assert (S : exp (- x) + exp (- y) = exp (- - ln (exp (- x) + exp (- y)))).
      { rewrite Ropp_involutive, exp_ln by lra. reflexivity. }
      rewrite S in C. apply close_exp in C; [|lra].
      apply sf_fin. split; [lra|].
      set (t := - ln (exp (- x) + exp (- y))) in *.
      replace (m_sum m x y + ln (p + q)) with ((m_sum m x y - t) + (t + ln (p + q))) by ring.
      eapply Rle_trans; [apply Rabs_triang|]. lra.
    - cbn [stands_for] in Hb. subst q. rewrite Rplus_0_r. cbn [r_nls neg_log_sum].
      apply (sf_mono d); [lra | exact Ha].
    - cbn [stands_for] in Ha. subst p. rewrite Rplus_0_l. cbn [r_nls neg_log_sum].
      apply (sf_mono d); [lra | exact Hb].
    - cbn [stands_for] in *. subst. cbn. lra.
  Qed.

  Lemma sf_add d1 d2 L1 L2 a b p q : stands_for d1 a p -> stands_for d2 b q -> sized L1 p -> sized L2 q ->
    0 <= d1 <= 1 -> 0 <= d2 <= 1 -> L1 + 1 <= B -> L2 + 1 <= B ->
    stands_for (d1 + d2 + u) (r_add m a b) (p * q).
  Proof.
    intros Ha Hb Sp Sq D1 D2 HB1 HB2.
    destruct a as [x| | |], b as [y| | |]; try contradiction.
    - pose proof (sf_range _ _ _ _ Ha Sp ltac:(lra)) as Rx.
      pose proof (sf_range _ _ _ _ Hb Sq ltac:(lra)) as Ry.
      pose proof (acc_add _ _ _ Hm x y ltac:(lra) ltac:(lra)) as E.
      cbn [r_add]. apply sf_fin in Ha. apply sf_fin in Hb. destruct Ha as [Pp Ca], Hb as [Pq Cb].
      apply sf_fin. split; [apply Rmult_lt_0_compat; assumption|]. rewrite ln_mult by assumption.
      apply Rabs_range in E. apply Rabs_range in Ca. apply Rabs_range in Cb. apply Rabs_le. lra.
    - cbn [stands_for r_add cadd] in *. subst q. ring.
    - cbn [stands_for r_add cadd] in *. subst p. ring.
    - cbn [stands_for r_add cadd] in *. subst p. ring.
  Qed.

  Lemma sf_sub d1 d2 L1 L2 a b p q : stands_for d1 a p -> stands_for d2 b q -> 0 < q -> sized L1 p -> sized L2 q ->
    0 <= d1 <= 1 -> 0 <= d2 <= 1 -> L1 + 1 <= B -> L2 + 1 <= B ->
    stands_for (d1 + d2 + u) (r_sub m a b) (p / q).
  Proof.
    intros Ha Hb Hq Sp Sq D1 D2 HB1 HB2.
    destruct b as [y| | |]; try contradiction; [|cbn [stands_for] in Hb; lra].
    destruct a as [x| | |]; try contradiction.
    - pose proof (sf_range _ _ _ _ Ha Sp ltac:(lra)) as Rx.
      pose proof (sf_range _ _ _ _ Hb Sq ltac:(lra)) as Ry.
      pose proof (acc_add _ _ _ Hm x (- y) ltac:(lra) ltac:(rewrite Rabs_Ropp; lra)) as E.
      unfold r_sub. cbn [copp r_add]. apply sf_fin in Ha. apply sf_fin in Hb.
      destruct Ha as [Pp Ca], Hb as [Pq Cb].
      apply sf_fin. split; [apply Rdiv_lt_0_compat; assumption|].
      unfold Rdiv. rewrite ln_mult, ln_Rinv by (try apply Rinv_0_lt_compat; assumption).
      apply Rabs_range in E. apply Rabs_range in Ca. apply Rabs_range in Cb. apply Rabs_le. lra.
    - unfold r_sub. cbn [stands_for copp r_add cadd] in *. subst p. unfold Rdiv. ring.
  Qed.

  Lemma sf_log L p : sized L p -> L <= B -> stands_for u (r_neg_log m p) p.
  Proof.
    intros S HB. unfold r_neg_log. pose proof (exp_pos (- L)) as EP.
    destruct (Rle_dec p 0) as [H|H].
    - destruct S as [->|S]; [|lra]. destruct (Rle_dec 0 0) as [_|N]; [reflexivity|lra].
    - destruct S as [->|S]; [lra|]. apply sf_fin. split; [lra|].
      replace (- m_ln m p + ln p) with (- (m_ln m p - ln p)) by ring. rewrite Rabs_Ropp.
      apply (acc_ln _ _ _ Hm).
      split; [apply Rle_trans with (exp (- L)); [apply exp_le; lra | lra]
             |apply Rle_trans with (exp L); [lra | apply exp_le; lra]].
  Qed.

  Lemma exp_close v : 0 <= v <= / 2 -> exp (- (2 * v)) <= 1 - v /\ 1 + v <= exp (2 * v).
  Proof.
    intro H. split.
    - pose proof (exp_ineq1_le (2 * v)) as E. pose proof (exp_opp_mul (2 * v)) as M.
      pose proof (exp_pos (2 * v)). pose proof (exp_pos (- (2 * v))).
      assert (1 <= (1 - v) * (1 + 2 * v)) by nra.
      apply Rmult_le_reg_l with (exp (2 * v)); [assumption|]. rewrite M. nra.
    - pose proof (exp_ineq1_le (2 * v)). lra.
  Qed.

  Lemma sf_exp d L c p : stands_for d c p -> sized L p -> 0 <= d <= 1 -> L + 1 <= B -> u <= / 2 ->
    exists y, r_exp_neg m c = Val (F := R_field) y /\ close (d + 2 * u) p y.
  Proof.
    intros Hc Sp D HB U. destruct c as [x| | |]; try contradiction.
    - pose proof (sf_range _ _ _ _ Hc Sp ltac:(lra)) as Rx.
      exists (m_exp m (- x)). split; [reflexivity|].
      pose proof (acc_exp _ _ _ Hm (- x) ltac:(rewrite Rabs_Ropp; lra)) as E.
      cbn [stands_for] in Hc. destruct Hc as [Pp [C1 C2]].
      apply Rabs_range in E. destruct (exp_close u (conj Hu U)) as [X1 X2].
      pose proof (exp_pos (- x)). pose proof (exp_pos (- (2 * u))). pose proof (exp_pos (2 * u)).
      unfold close. rewrite Ropp_plus_distr, !exp_plus, <- !Rmult_assoc. split.
      + apply Rle_trans with (exp (- x) * exp (- (2 * u))); [nra|]. nra.
      + apply Rle_trans with (exp (- x) * exp (2 * u)); [nra|]. nra.
    - cbn [stands_for] in Hc. subst p. exists 0. split; [reflexivity|]. unfold close. lra.
  Qed.
End Ops.

(** 0, or not too small. *)
Definition low (L p : R) : Prop := p = 0 \/ exp (- L) <= p.

Lemma low_nonneg L p : low L p -> 0 <= p.
Proof. intros [->|H]; [lra|]. pose proof (exp_pos (- L)). lra. Qed.
Lemma low_add L p q : low L p -> low L q -> low L (p + q).
Proof.
  intros [->|A] [->|C]; unfold low; pose proof (exp_pos (- L)); try (rewrite Rplus_0_l); try (rewrite Rplus_0_r); auto.
  right. lra.
Qed.
Lemma low_sized L M p : L <= M -> low L p -> p <= exp M -> sized M p.
Proof.
  intros H [->|A] C; [left; reflexivity|]. right. split; [|exact C].
  apply Rle_trans with (exp (- L)); [apply exp_le; lra | exact A].
Qed.
Lemma rsum_nonneg L l : Forall (low L) l -> 0 <= rsum l.
Proof. induction 1 as [|p l A _ IH]; cbn; [lra|]. apply low_nonneg in A. fold (rsum l). lra. Qed.
Lemma rsum_in L l p : Forall (low L) l -> In p l -> p <= rsum l.
Proof.
  intros F H. induction F as [|q l A F IH]; [contradiction|]. cbn [rsum fold_right]. fold (rsum l).
  pose proof (rsum_nonneg L l F). apply low_nonneg in A. destruct H as [->|H]; [lra|]. specialize (IH H). lra.
Qed.
Lemma rsum_cons p l : rsum (p :: l) = p + rsum l.
Proof. reflexivity. Qed.
Lemma low_rsum L l : Forall (low L) l -> low L (rsum l).
Proof. induction 1 as [|p l A _ IH]; [left; reflexivity|]. rewrite rsum_cons. apply low_add; assumption. Qed.

Lemma rsum_perm (l l' : list R) : Permutation l l' -> rsum l = rsum l'.
Proof.
  induction 1; rewrite ?rsum_cons; [reflexivity | rewrite IHPermutation; reflexivity | ring | congruence].
Qed.

Lemma forall2_perm {A C : Type} (P : A -> C -> Prop) l k : Forall2 P l k -> forall l', Permutation l l' ->
  exists k', Permutation k k' /\ Forall2 P l' k'.
Proof.
  intros H l' E. revert k H. induction E; intros k H.
  - exists k. auto.
  - inversion H as [|? y ? k2 H1 H2]; subst. destruct (IHE k2 H2) as (k' & A1 & A2). exists (y :: k'). auto.
  - inversion H as [|? a ? k2 H1 H2]; subst. inversion H2 as [|? b ? k3 H3 H4]; subst.
    exists (b :: a :: k3). split; [constructor | auto].
  - destruct (IHE1 k H) as (k1 & A1 & A2). destruct (IHE2 k1 A2) as (k2 & B1 & B2).
    exists k2. split; [eapply perm_trans; eassumption | exact B2].
Qed.

Section Lists.
  Variable m : machine.
  Variables u B : R.
  Hypothesis Hm : accurate u B m.
  Hypothesis Hu : 0 <= u.

  Lemma sf_fold d L M : 0 <= d -> L <= M -> M + 1 <= B -> forall cs ps, Forall2 (stands_for d) cs ps ->
    Forall (low L) ps -> forall d0 c0 p0, stands_for d0 c0 p0 -> low L p0 -> d <= d0 ->
    d0 + INR (length cs) * u <= 1 -> p0 + rsum ps <= exp M ->
    stands_for (d0 + INR (length cs) * u) (fold_left (r_nls m) cs c0) (p0 + rsum ps).
  Proof.
    intros D LM MB cs ps H. induction H as [|c p cs ps A H IH]; intros Lp d0 c0 p0 S0 L0 Dd D1 T.
    - cbn [fold_left length INR rsum fold_right]. rewrite Rplus_0_r, Rmult_0_l, Rplus_0_r. exact S0.
    - apply Forall_cons_iff in Lp. destruct Lp as [Lp Ls]. rewrite rsum_cons in T.
      cbn [length] in D1. rewrite S_INR in D1. cbn [fold_left].
      pose proof (rsum_nonneg L ps Ls) as N1. pose proof (low_nonneg L p Lp) as N2.
      pose proof (low_nonneg L p0 L0) as N3. pose proof (pos_INR (length cs)) as N4.
      assert (NU : 0 <= INR (length cs) * u) by (apply Rmult_le_pos; assumption).
      assert (S1 : stands_for (d0 + u) (r_nls m c0 c) (p0 + p)).
      { apply (sf_nls m u B Hm Hu d0 M); try lra; [exact S0 | | |].
        - apply (sf_mono d); assumption.
        - apply (low_sized L); try assumption. lra.
        - apply (low_sized L); try assumption. lra. }
      pose proof (IH Ls (d0 + u) _ _ S1 (low_add L p0 p L0 Lp) ltac:(lra) ltac:(lra) ltac:(lra)) as K.
      cbn [length]. rewrite S_INR, rsum_cons.
      replace (d0 + (INR (length cs) + 1) * u) with (d0 + u + INR (length cs) * u) by ring.
      replace (p0 + (p + rsum ps)) with (p0 + p + rsum ps) by ring. exact K.
  Qed.

  Lemma sf_total d L M cs ps : 0 <= d -> L <= M -> M + 1 <= B -> Forall2 (stands_for d) cs ps ->
    Forall (low L) ps -> d + INR (length cs) * u <= 1 -> rsum ps <= exp M ->
    stands_for (d + INR (length cs) * u) (r_total m cs) (rsum ps).
  Proof.
    intros D LM MB H Lp D1 T. destruct H as [|c p cs ps A H]; [cbn; reflexivity|].
    apply Forall_cons_iff in Lp. destruct Lp as [Lp Ls]. cbn [r_total]. rewrite rsum_cons in *.
    cbn [length] in *. rewrite S_INR in *.
    apply (sf_mono (d + INR (length cs) * u)); [lra|].
    apply (sf_fold d L M); try assumption; lra.
  Qed.

  Lemma sf_div_all d e M tot s : stands_for e tot s -> 0 < s -> sized M s -> 0 <= d <= 1 -> 0 <= e <= 1 ->
    M + 1 <= B -> forall cs ps, Forall2 (stands_for d) cs ps -> Forall (sized M) ps ->
    Forall2 (stands_for (d + e + u)) (map (fun c => r_sub m c tot) cs) (map (fun p => p / s) ps).
  Proof.
    intros ST Ps SM D E MB cs ps H. induction H as [|c p cs ps A H IH]; intro X; [constructor|].
    apply Forall_cons_iff in X. destruct X as [Xp Xs]. cbn [map]. constructor; [|apply IH; exact Xs].
    apply (sf_sub m u B Hm d e M M); assumption.
  Qed.

  Lemma low_all_sized L M ps : L <= M -> Forall (low L) ps -> rsum ps <= exp M -> Forall (sized M) ps.
  Proof.
    intros LM Lp T. apply Forall_forall. intros p Hp. apply (low_sized L); [lra | |].
    - rewrite Forall_forall in Lp. auto.
    - apply Rle_trans with (rsum ps); [apply (rsum_in L); assumption | lra].
  Qed.

  Lemma sf_renorm d L M cs ps : 0 <= d -> L <= M -> M + 1 <= B -> Forall2 (stands_for d) cs ps ->
    Forall (low L) ps -> d + INR (length cs) * u <= 1 -> 0 < rsum ps <= exp M ->
    Forall2 (stands_for (2 * d + (INR (length cs) + 1) * u)) (map (fun c => r_sub m c (r_total m cs)) cs)
      (map (fun p => p / rsum ps) ps).
  Proof.
    intros D LM MB H Lp D1 T. pose proof (sf_total d L M cs ps D LM MB H Lp D1 ltac:(lra)) as ST.
    assert (NU : 0 <= INR (length cs) * u) by (apply Rmult_le_pos; [apply pos_INR | exact Hu]).
    replace (2 * d + (INR (length cs) + 1) * u) with (d + (d + INR (length cs) * u) + u) by ring.
    apply (sf_div_all d _ M); try assumption; try lra.
    - apply (low_sized L); [lra | apply low_rsum; exact Lp | lra].
    - apply (low_all_sized L); [lra | exact Lp | lra].
  Qed.

  (** * The mixture *)

  (** An entry of the table of mixed values, and the probability it stands for. *)
  Definition entry_ok (d L : R) (e : str * cost) (x : str * num R_field) : Prop :=
    fst e = fst x /\ exists p, snd x = Val (F := R_field) p /\ stands_for d (snd e) p /\ low L p.
  Definition mass (l : list (str * num R_field)) : R :=
    rsum (map (fun x : str * num R_field => match snd x with Val p => (p : R) | NaN => 0 end) l).

  Lemma mass_cons k p l : mass ((k, Val (F := R_field) p) :: l) = p + mass l.
  Proof. reflexivity. Qed.

  Lemma mass_nonneg d L acc xs : Forall2 (entry_ok d L) acc xs -> 0 <= mass xs.
  Proof.
    induction 1 as [|e [k x] acc xs (_ & p & E & _ & A) _ IH]; [cbn; lra|].
    cbn [snd] in E. subst x. rewrite mass_cons. apply low_nonneg in A. lra.
  Qed.

  Lemma entry_mono d d' L acc xs : d <= d' -> Forall2 (entry_ok d L) acc xs -> Forall2 (entry_ok d' L) acc xs.
  Proof.
    intros H. induction 1 as [|e x acc xs (A & p & E & S & C) _ IH]; constructor; auto.
    split; [exact A|]. exists p. split; [exact E|]. split; [|exact C]. apply (sf_mono d); assumption.
  Qed.

  (** Adding one value to the table. *)
  Lemma mix_add_ok d L M key v p : 0 <= d <= 1 -> L <= M -> M + 1 <= B -> stands_for d v p -> low L p ->
    forall acc xs, Forall2 (entry_ok d L) acc xs -> p + mass xs <= exp M ->
    Forall2 (entry_ok (d + u) L) (r_mix_add m key v acc) (mix_add key (Val (F := R_field) p) xs) /\
    mass (mix_add key (Val (F := R_field) p) xs) = p + mass xs /\
    (length (r_mix_add m key v acc) <= S (length acc))%nat.
  Proof.
    intros D LM MB Sv Lv acc xs H. pose proof (low_nonneg L p Lv) as Np.
    induction H as [|[k c] [k' x] acc xs (A & q & E & S & C) H IH]; intro T.
    - cbn [r_mix_add mix_add length]. split; [|split; [|lia]].
      + constructor; [|constructor]. split; [reflexivity|]. exists p. split; [reflexivity|].
        split; [apply (sf_mono d); [lra | exact Sv] | exact Lv].
      + reflexivity.
    - cbn [fst snd] in *. subst k' x. cbn [r_mix_add mix_add].
      pose proof (mass_nonneg _ _ _ _ H) as N. pose proof (low_nonneg L q C) as Nq.
      rewrite mass_cons in T. destruct (str_eqb k key).
      + split; [|split; [|cbn [length]; lia]].
        * constructor; [|apply (entry_mono d); [lra | exact H]]. split; [reflexivity|].
          exists (p + q). split; [reflexivity|]. split; [|apply low_add; assumption].
          apply (sf_nls m u B Hm Hu d M); try assumption; try lra.
          -- apply (low_sized L); try assumption. lra.
          -- apply (low_sized L); try assumption. lra.
        * cbn [nadd]. change (Val (@fadd R_field p q)) with (Val (F := R_field) (Rplus p q)). rewrite !mass_cons. ring.
      + destruct (IH ltac:(lra)) as (I1 & I2 & I3). split; [|split].
        * constructor; [|exact I1]. split; [reflexivity|]. exists q. split; [reflexivity|].
          split; [apply (sf_mono d); [lra | exact S] | exact C].
        * rewrite !mass_cons, I2. ring.
        * cbn [length]. lia.
  Qed.

  (** The probabilities may exceed 1, by a factor of exp P at most. *)
  Variables (P dw L M : R) (T : nat).
  Hypothesis HP : 0 <= P <= L.
  Hypothesis Hdw : 0 <= dw.
  Hypothesis HL : 0 <= L.
  Hypothesis HT : INR T * exp (L + P) <= exp M.
  Hypothesis HLM : 2 * L <= M.
  Hypothesis HMB : M + 1 <= B.
  Hypothesis HD : dw + (INR T + 2) * u <= 1.

  (** The table after [t] values. *)
  Definition table_ok (t : nat) (acc : list (str * cost)) (xs : list (str * num R_field)) : Prop :=
    Forall2 (entry_ok (dw + (INR t + 2) * u) (2 * L)) acc xs /\ mass xs <= INR t * exp (L + P) /\
    (length acc <= t)%nat.

  Definition score_ok (p : R) : Prop := p = 0 \/ exp (- L) <= p <= exp P.

  Lemma entry_step t key p w q acc xs : table_ok t acc xs -> (t < T)%nat -> score_ok p ->
    stands_for dw w q -> sized L q ->
    table_ok (S t) (r_mix_add m key (r_add m (r_neg_log m p) w) acc)
      (mix_add key (nmul (Val (F := R_field) p) (Val (F := R_field) q)) xs).
  Proof.
    intros (A & Ms & Ln) Ht Sp Sw Sq.
    pose proof (pos_INR t) as Nt. assert (NT : INR (S t) <= INR T) by (apply le_INR; lia).
    rewrite S_INR in NT.
    assert (U1 : (INR t + 3) * u <= (INR T + 2) * u) by (apply Rmult_le_compat_r; lra).
    assert (U2 : 0 <= INR t * u) by (apply Rmult_le_pos; assumption).
    assert (E1 : exp P <= exp L) by (apply exp_le; lra).
    assert (SpL : sized L p). { destruct Sp as [->|Sp]; [left; reflexivity|]. right. lra. }
    assert (V : stands_for (u + dw + u) (r_add m (r_neg_log m p) w) (p * q)).
    { apply (sf_add m u B Hm u dw L L); try assumption; try lra.
      apply (sf_log m u B Hm L); [exact SpL | lra]. }
    assert (Lv : low (2 * L) (p * q)).
    { destruct Sp as [->|Sp]; [left; ring|]. destruct Sq as [->|Sq]; [left; ring|]. right.
      replace (- (2 * L)) with (- L + - L) by ring. rewrite exp_plus.
      pose proof (exp_pos (- L)). apply Rmult_le_compat; lra. }
    assert (Hv : p * q <= exp (L + P)).
    { pose proof (exp_pos (L + P)). pose proof (exp_pos (- L)).
      destruct Sp as [->|Sp]; [rewrite Rmult_0_l; lra|]. destruct Sq as [->|Sq]; [rewrite Rmult_0_r; lra|].
      rewrite Rplus_comm, exp_plus. apply Rmult_le_compat; lra. }
    change (nmul (Val (F := R_field) p) (Val (F := R_field) q)) with (Val (F := R_field) (Rmult p q)).
    destruct (mix_add_ok (dw + (INR t + 2) * u) (2 * L) M key (r_add m (r_neg_log m p) w) (p * q))
      with (acc := acc) (xs := xs) as (R1 & R2 & R3); try assumption; try lra.
    - apply (sf_mono (u + dw + u)); [lra | exact V].
    - assert (INR t * exp (L + P) + exp (L + P) <= INR T * exp (L + P)); [|lra].
      replace (INR t * exp (L + P) + exp (L + P)) with ((INR t + 1) * exp (L + P)) by ring.
      apply Rmult_le_compat_r; [left; apply exp_pos | lra].
    - unfold table_ok. rewrite S_INR. split; [|split].
      + replace (dw + (INR t + 1 + 2) * u) with (dw + (INR t + 2) * u + u) by ring. exact R1.
      + rewrite R2. lra.
      + lia.
  Qed.

  Lemma results_step w q (e : list (str * R)) : forall t acc xs, table_ok t acc xs ->
    (t + length e <= T)%nat -> Forall (fun x => score_ok (snd x)) e -> stands_for dw w q -> sized L q ->
    forall n, table_ok (t + length e) (r_mix_results m (LmScores n e) w acc)
      (mix_results (F := R_field) (LmScores n e) (Val (F := R_field) q) xs).
  Proof.
    unfold r_mix_results, mix_results. cbn [sc_entries].
    induction e as [|[k p] e IH]; intros t acc xs A Ht F Sw Sq n; cbn [fold_left length].
    - replace (t + 0)%nat with t by lia. exact A.
    - apply Forall_cons_iff in F. destruct F as [F1 F2]. cbn [snd] in F1. cbn [length] in Ht.
      replace (t + S (length e))%nat with (S t + length e)%nat by lia.
      apply IH; try assumption; [|lia]. apply entry_step; try assumption. lia.
  Qed.

  (** An answer of a component with its weight, and the same with the exact weight. *)
  Definition answer_ok (a : lm_scores R * cost) (b : lm_scores R * R) : Prop :=
    fst a = fst b /\ Forall (fun x => score_ok (snd x)) (sc_entries (fst a)) /\
    stands_for dw (snd a) (snd b) /\ sized L (snd b).
  Definition entries_in (l : list (lm_scores R * R)) : nat :=
    fold_right (fun b n => (length (sc_entries (fst b)) + n)%nat) 0%nat l.

  Lemma answers_step as_ bs : Forall2 answer_ok as_ bs -> forall t acc xs, table_ok t acc xs ->
    (t + entries_in bs <= T)%nat ->
    table_ok (t + entries_in bs)
      (fold_left (fun acc '(sc, w) => r_mix_results m sc w acc) as_ acc)
      (fold_left (fun xs '(sc, q) => mix_results (F := R_field) sc (Val (F := R_field) q) xs) bs xs).
  Proof.
    induction 1 as [|[[n e] w] [sc q] as_ bs (A & B1 & C & D) H IH]; intros t acc xs K Ht; cbn [fold_left entries_in fold_right].
    - replace (t + 0)%nat with t by lia. exact K.
    - cbn [fst snd sc_entries] in *. subst sc. cbn [sc_entries fst] in *.
      cbn [entries_in fold_right fst sc_entries] in Ht. fold (entries_in bs) in *.
      replace (t + (length e + entries_in bs))%nat with ((t + length e) + entries_in bs)%nat by lia.
      apply IH; [|lia]. apply results_step; try assumption. lia.
  Qed.

  (** Sorting keeps the correspondence. *)
  Lemma insert_ok d K e x acc xs : entry_ok d K e x -> Forall2 (entry_ok d K) acc xs ->
    Forall2 (entry_ok d K) (insert_key_log e acc) (insert_key x xs).
  Proof.
    intros A H. induction H as [|f y acc xs C H IH]; cbn [insert_key_log insert_key]; [constructor; auto|].
    destruct A as [A1 A2], C as [C1 C2]. rewrite A1, C1. destruct (str_leb (fst x) (fst y)).
    - constructor; [split; assumption|]. constructor; [split; assumption|exact H].
    - constructor; [split; assumption|]. apply IH.
  Qed.
  Lemma sort_ok d K acc xs : Forall2 (entry_ok d K) acc xs ->
    Forall2 (entry_ok d K) (fold_right insert_key_log [] acc) (sort_keys xs).
  Proof. induction 1 as [|e x acc xs A H IH]; cbn; [constructor|]. apply insert_ok; assumption. Qed.

  Lemma entries_costs d K acc xs : Forall2 (entry_ok d K) acc xs ->
    exists ps, map snd xs = map (Val (F := R_field)) ps /\ Forall2 (stands_for d) (map snd acc) ps /\
      Forall (low K) ps /\ rsum ps = mass xs.
  Proof.
    induction 1 as [|e [k x] acc xs (A & p & E & S & C) H (ps & I1 & I2 & I3 & I4)].
    - exists []. cbn. repeat split; constructor.
    - cbn [snd] in E. subst x. exists (p :: ps). cbn [map snd]. rewrite I1. split; [reflexivity|].
      split; [constructor; assumption|]. split; [constructor; assumption|].
      rewrite mass_cons, rsum_cons, I4. reflexivity.
  Qed.

  (** The computed answer, entry by entry. *)
  Definition result_ok (d : R) (a b : str * num R_field) : Prop :=
    fst a = fst b /\ exists p z, snd b = Val (F := R_field) p /\ snd a = Val (F := R_field) z /\ close d p z.

  Hypothesis HB2 : 2 * L + M + 1 <= B.
  Hypothesis HU : u <= / 2.
  Hypothesis HD2 : 2 * dw + (3 * INR T + 5) * u <= 1.

  Variable order : list (str * cost) -> list (str * cost).
  Hypothesis Hor : forall l, Permutation l (order l).

  Lemma extract_ok acc xs norm : table_ok T acc xs -> 0 < mass xs ->
    Forall2 (result_ok (2 * dw + (3 * INR T + 7) * u)) (r_extract_mixture m order acc)
      (sc_entries (extract_mixture (F := R_field) xs norm)).
  Proof.
    intros (A & Ms & Ln) Pm. pose proof (pos_INR T) as NT.
    assert (TU : 0 <= INR T * u) by (apply Rmult_le_pos; assumption).
    destruct (entries_costs _ _ _ _ A) as (ps & E1 & E2 & E3 & E4).
    assert (LN : INR (length (map snd acc)) <= INR T) by (rewrite map_length; apply le_INR; exact Ln).
    assert (LNU : INR (length (map snd acc)) * u <= INR T * u) by (apply Rmult_le_compat_r; assumption).
    assert (Ne : ps <> []) by (intros ->; cbn in E4; lra).
    assert (MX : mass xs <= exp M) by lra.
    assert (ST : stands_for (dw + (2 * INR T + 2) * u) (r_total m (map snd (order acc))) (mass xs)).
    { destruct (forall2_perm _ _ _ E2 _ (Permutation_map snd (Hor acc))) as (ps' & Pp & E2').
      apply (sf_mono (dw + (INR T + 2) * u + INR (length (map snd (order acc))) * u)).
      { rewrite <- (Permutation_length (Permutation_map snd (Hor acc))). lra. }
      rewrite <- E4, (rsum_perm _ _ Pp). apply (sf_total (dw + (INR T + 2) * u) (2 * L) M); try assumption; try lra.
      - apply (Permutation_Forall Pp). exact E3.
      - rewrite <- (Permutation_length (Permutation_map snd (Hor acc))). lra.
      - rewrite <- (rsum_perm _ _ Pp). lra. }
    unfold r_extract_mixture, extract_mixture. cbn [sc_entries].
    assert (ES : nsum (map snd xs) = Val (F := R_field) (mass xs)).
    { rewrite E1, (nsum_vals (F := R_field) ps Ne). f_equal. rewrite <- E4. reflexivity. }
    rewrite ES. revert ST. generalize (r_total m (map snd (order acc))) as tot. intros tot ST.
    assert (SL : Forall (fun x => exists p, snd x = Val (F := R_field) p /\ p <= mass xs) (sort_keys xs)).
    { apply Forall_forall. intros x Hx. apply (Permutation_in _ (Permutation_sym (sort_keys_perm xs))) in Hx.
      apply (in_map snd) in Hx. rewrite E1 in Hx. apply in_map_iff in Hx. destruct Hx as (p & Ep & Hp).
      exists p. split; [symmetry; exact Ep|]. rewrite <- E4. apply (rsum_in (2 * L)); assumption. }
    assert (Lm : low (2 * L) (mass xs)) by (rewrite <- E4; apply low_rsum; exact E3).
    assert (Szm : sized M (mass xs)) by (apply (low_sized (2 * L)); [lra | exact Lm | lra]).
    pose proof (sort_ok _ _ _ _ A) as S. clear E1 E2 E3 E4 Ne A ES LN LNU Ln ps.
    revert S SL. generalize (fold_right insert_key_log [] acc) as l. generalize (sort_keys xs) as ys.
    intros ys l S. induction S as [|[k c] [k' x] l ys (C1 & p & C2 & C3 & C4) S IH]; intro SL; [constructor|].
    apply Forall_cons_iff in SL. destruct SL as [(p' & Ep & Hp) SL]. cbn [map fst snd] in *. subst k' x.
    injection Ep as <-. constructor; [|apply IH; exact SL].
    split; [reflexivity|]. cbn [snd].
    assert (Szp : sized M p) by (apply (low_sized (2 * L)); [lra | exact C4 | lra]).
    assert (Q : stands_for (2 * dw + (3 * INR T + 5) * u) (r_sub m c tot) (p / mass xs)).
    { replace (2 * dw + (3 * INR T + 5) * u)
        with (dw + (INR T + 2) * u + (dw + (2 * INR T + 2) * u) + u) by ring.
      apply (sf_sub m u B Hm _ _ M M); try assumption; try lra. }
    assert (SQ : sized (2 * L + M) (p / mass xs)).
    { destruct C4 as [->|C4]; [left; unfold Rdiv; ring|]. right. split.
      - rewrite Ropp_plus_distr, exp_plus. unfold Rdiv.
        assert (exp (- M) <= / mass xs).
        { rewrite exp_Ropp. apply Rinv_le_contravar; assumption. }
        pose proof (exp_pos (- (2 * L))). pose proof (exp_pos (- M)).
        apply Rmult_le_compat; lra.
      - apply Rle_trans with 1; [|rewrite <- exp_0; apply exp_le; lra].
        apply Rmult_le_reg_r with (mass xs); [exact Pm|]. unfold Rdiv.
        rewrite Rmult_assoc, Rinv_l by lra. lra. }
    destruct (sf_exp m u B Hm Hu _ _ _ _ Q SQ ltac:(lra) ltac:(lra) HU) as (z & Ez & Cz).
    exists (p / mass xs), z. split; [|split; [exact Ez|]].
    - cbn [ndiv]. unfold num_div. destruct (@feqb R_field (mass xs) f0) eqn:Z; [|reflexivity].
      apply (feqb_eq (F := R_field)) in Z. cbn in Z. lra.
    - replace (2 * dw + (3 * INR T + 7) * u) with (2 * dw + (3 * INR T + 5) * u + 2 * u) by ring. exact Cz.
  Qed.

  Lemma answers_table as_ bs : Forall2 answer_ok as_ bs -> entries_in bs = T ->
    table_ok T (fold_left (fun acc '(sc, w) => r_mix_results m sc w acc) as_ [])
      (fold_left (fun xs '(sc, q) => mix_results (F := R_field) sc (Val (F := R_field) q) xs) bs []).
  Proof.
    intros H E. rewrite <- E at 1. change (entries_in bs) with (0 + entries_in bs)%nat.
    apply answers_step; [exact H | | lia]. split; [constructor|]. split; [cbn; lra | cbn; lia].
  Qed.
End Lists.

(** * The normalization field and the histories *)

Lemma close_round u d p y z : 0 <= u <= / 2 -> 0 <= y -> close d p y -> Rabs (z - y) <= u * y ->
  close (d + 2 * u) p z.
Proof.
  intros U Y [C1 C2] E. apply Rabs_range in E. destruct (exp_close u U) as [X1 X2].
  pose proof (exp_pos (- (2 * u))). pose proof (exp_pos (2 * u)).
  unfold close. rewrite Ropp_plus_distr, !exp_plus, <- !Rmult_assoc. split.
  - apply Rle_trans with (y * exp (- (2 * u))); nra.
  - apply Rle_trans with (y * exp (2 * u)); nra.
Qed.

Lemma close_scale d n p y : 0 <= n -> close d p y -> close d (n * p) (n * y).
Proof. intros N [C1 C2]. unfold close. split; rewrite Rmult_assoc; apply Rmult_le_compat_l; assumption. Qed.

Lemma close_mono d d' p y : 0 <= p -> d <= d' -> close d p y -> close d' p y.
Proof.
  intros P D [C1 C2]. pose proof (exp_le (- d') (- d) ltac:(lra)). pose proof (exp_le d d' D). split; nra.
Qed.

Lemma close_nonneg d p y : 0 <= p -> close d p y -> 0 <= y.
Proof. intros P [C _]. pose proof (exp_pos (- d)). nra. Qed.

(** In range up to a factor e. *)
Lemma close_in_range d L M p y : d <= 1 -> low L p -> p <= exp M -> close d p y ->
  y = 0 \/ exp (- (L + 1)) <= y <= exp (M + 1).
Proof.
  intros D [->|Lp] Mp [C1 C2]; [left; lra|]. right.
  pose proof (exp_le (- (1)) (- d) ltac:(lra)) as E1. pose proof (exp_le d 1 D) as E2.
  pose proof (exp_pos (- L)). pose proof (exp_pos (- (1))). pose proof (exp_pos 1). pose proof (exp_pos M).
  replace (- (L + 1)) with (- L + - (1)) by ring. rewrite !exp_plus. split.
  - apply Rle_trans with (p * exp (- d)); [|exact C1]. apply Rmult_le_compat; lra.
  - apply Rle_trans with (p * exp d); [exact C2|]. apply Rmult_le_compat; try lra. left. apply exp_pos.
Qed.

Section Norm.
  Variable m : machine.
  Variables u B d L M : R.
  Hypothesis Hm : accurate u B m.
  Hypothesis Hu : 0 <= u <= / 2.
  Hypothesis Hd : 0 <= d.
  Hypothesis HL : 0 <= L.
  Hypothesis HLM : 2 * L <= M.
  Hypothesis HMB : M + 1 <= B.

  Lemma term_ok (sc : lm_scores R) w q : sized L (sc_norm sc) -> stands_for d w q -> sized L q -> d + 4 * u <= 1 ->
    exists z, r_num2 (m_mul m) (Val (F := R_field) (sc_norm sc)) (r_exp_neg m w) = Val (F := R_field) z /\
      close (d + 4 * u) (q * sc_norm sc) z /\ low (2 * L) (q * sc_norm sc) /\ q * sc_norm sc <= exp (2 * L).
  Proof.
    intros Sn Sw Sq D.
    destruct (sf_exp m u B Hm ltac:(lra) d L w q Sw Sq ltac:(lra) ltac:(lra) ltac:(lra)) as (y & Ey & Cy).
    rewrite Ey. cbn [r_num2]. exists (m_mul m (sc_norm sc) y). split; [reflexivity|].
    assert (Pn : 0 <= sc_norm sc) by (destruct Sn as [->|Sn]; [lra | pose proof (exp_pos (- L)); lra]).
    assert (Pq : 0 <= q) by (destruct Sq as [->|Sq]; [lra | pose proof (exp_pos (- L)); lra]).
    assert (Lw : low (2 * L) (q * sc_norm sc)).
    { destruct Sn as [->|Sn]; [left; ring|]. destruct Sq as [->|Sq]; [left; ring|]. right.
      replace (- (2 * L)) with (- L + - L) by ring. rewrite exp_plus. pose proof (exp_pos (- L)).
      apply Rmult_le_compat; lra. }
    assert (Up : q * sc_norm sc <= exp (2 * L)).
    { replace (2 * L) with (L + L) by ring. rewrite exp_plus. pose proof (exp_pos L).
      apply Rmult_le_compat; try assumption; [destruct Sq as [->|]; lra | destruct Sn as [->|]; lra]. }
    split; [|split; assumption].
    pose proof (close_scale _ _ _ _ Pn Cy) as Cn. rewrite (Rmult_comm (sc_norm sc) q) in Cn.
    pose proof (close_nonneg _ _ _ (Rmult_le_pos _ _ Pq Pn) Cn) as Z0.
    pose proof (close_nonneg _ _ _ Pq Cy) as Y0.
    replace (d + 4 * u) with (d + 2 * u + 2 * u) by ring.
    apply (close_round u _ _ (sc_norm sc * y)); [exact Hu | exact Z0 | exact Cn|].
    apply (acc_mul _ _ _ Hm); [exact Pn | exact Y0|].
    destruct (close_in_range (d + 2 * u) _ _ _ _ ltac:(lra) Lw Up Cn) as [Z|Z]; [left; exact Z|]. right.
    pose proof (exp_le (- B) (- (2 * L + 1)) ltac:(lra)). pose proof (exp_le (2 * L + 1) B ltac:(lra)). lra.
  Qed.

  Lemma norm_ok : forall scs (ws : list R) costs D a y,
    Forall (fun sc : lm_scores R => sized L (sc_norm sc)) scs -> Forall2 (stands_for d) costs ws ->
    Forall (sized L) ws -> length scs = length ws ->
    close D a y -> low (2 * L) a -> d + 4 * u <= D -> D + 2 * INR (length scs) * u <= 1 ->
    a + rsum (map (fun '(w, sc) => w * sc_norm sc) (combine ws scs)) <= exp M ->
    exists z, fold_left (fun acc '(sc, w) =>
        r_num2 (m_add m) acc (r_num2 (m_mul m) (Val (F := R_field) (sc_norm sc)) (r_exp_neg m w)))
      (combine scs costs) (Val (F := R_field) y) = Val (F := R_field) z /\
      close (D + 2 * INR (length scs) * u) (a + rsum (map (fun '(w, sc) => w * sc_norm sc) (combine ws scs))) z.
  Proof.
    induction scs as [|sc scs IH]; intros ws costs D a y Hs Hc Hw Hlen C La D4 D1 T.
    - destruct ws; [|discriminate]. cbn [combine map fold_left length INR].
      exists y. split; [reflexivity|]. replace (D + 2 * 0 * u) with D by ring.
      replace (a + rsum []) with a by (cbn; ring). exact C.
    - destruct Hc as [|w q costs ws Sw Hc]; [discriminate|].
      apply Forall_cons_iff in Hs. apply Forall_cons_iff in Hw. destruct Hs as [Sn Hs], Hw as [Sq Hw].
      injection Hlen as Hlen. cbn [length] in D1. rewrite S_INR in D1.
      pose proof (pos_INR (length scs)) as N1.
      assert (NU : 0 <= INR (length scs) * u) by (apply Rmult_le_pos; lra).
      destruct (term_ok sc w q Sn Sw Sq ltac:(lra)) as (z & Ez & Cz & Lz & Uz).
      cbn [combine map] in T. rewrite rsum_cons in T.
      assert (NN : 0 <= rsum (map (fun '(w, sc) => w * sc_norm sc) (combine ws scs))).
      { assert (Forall (low (2 * L)) (map (fun '(w, sc) => w * sc_norm sc) (combine ws scs))).
        { clear - Hs Hw. revert ws Hw. induction Hs as [|sc scs S1 Hs IH]; intros [|q ws] Hw; cbn [combine map]; try constructor.
          - apply Forall_cons_iff in Hw. destruct Hw as [Sq Hw]. destruct S1 as [->|S1]; [left; ring|].
            destruct Sq as [->|Sq]; [left; ring|]. right.
            replace (- (2 * L)) with (- L + - L) by ring. rewrite exp_plus. pose proof (exp_pos (- L)).
            apply Rmult_le_compat; lra.
          - apply IH. apply Forall_cons_iff in Hw. tauto. }
        eapply rsum_nonneg; eassumption. }
      pose proof (low_nonneg _ _ La) as A0. pose proof (low_nonneg _ _ Lz) as Q0.
      assert (C' : close (D + 2 * u) (a + q * sc_norm sc) (m_add m y z)).
      { pose proof (close_mono _ D _ _ Q0 D4 Cz) as Cz'.
        pose proof (close_add _ _ _ _ _ C Cz') as Ca.
        pose proof (close_nonneg _ _ _ A0 C) as Y0. pose proof (close_nonneg _ _ _ Q0 Cz) as Z0.
        apply (close_round u _ _ (y + z)); [exact Hu | lra | exact Ca|].
        apply (acc_plus _ _ _ Hm); [exact Y0 | exact Z0|].
        destruct (close_in_range D (2 * L) M (a + q * sc_norm sc) (y + z) ltac:(lra)) as [Z|Z];
          [apply low_add; assumption | lra | exact Ca | left; exact Z|]. right.
        pose proof (exp_le (- B) (- (2 * L + 1)) ltac:(lra)). pose proof (exp_le (M + 1) B ltac:(lra)). lra. }
      destruct (IH ws costs (D + 2 * u) _ _ Hs Hc Hw Hlen C' (low_add _ _ _ La Lz) ltac:(lra) ltac:(lra) ltac:(lra))
        as (z' & Ez' & Cz').
      exists z'. cbn [combine fold_left].
      match goal with |- context [r_num2 (m_mul m) ?x ?v] => replace (r_num2 (m_mul m) x v) with (Val (F := R_field) z) by (symmetry; exact Ez) end.
      cbn [r_num2]. split; [exact Ez'|].
      cbn [map length]. rewrite rsum_cons, S_INR.
      replace (D + 2 * (INR (length scs) + 1) * u) with (D + 2 * u + 2 * INR (length scs) * u) by ring.
      rewrite <- Rplus_assoc. exact Cz'.
  Qed.

  (** Products of costs. *)
  Lemma product_ok K : forall cs ps, Forall2 (stands_for d) cs ps -> Forall (fun p => p = 0 \/ exp (- L) <= p <= 1) ps ->
    forall D k c p, stands_for D c p -> p = 0 \/ exp (- (INR k * L)) <= p <= 1 -> d <= D ->
    D + INR (length cs) * (d + u) <= 1 -> (k + length cs <= K)%nat -> INR K * L + 1 <= B -> (1 <= K)%nat ->
    stands_for (D + INR (length cs) * (d + u)) (fold_left (r_add m) cs c) (p * fold_right Rmult 1 ps).
  Proof.
    clear HLM HMB M. intros cs ps H. induction H as [|c1 p1 cs ps S1 H IH]; intros Hp D k c p Sc Pc Dd D1 Hk HK K1.
    - cbn [fold_left length INR fold_right]. replace (D + 0 * (d + u)) with D by ring. rewrite Rmult_1_r. exact Sc.
    - apply Forall_cons_iff in Hp. destruct Hp as [P1 Hp]. cbn [length] in *. rewrite S_INR in *.
      pose proof (pos_INR (length cs)) as N1.
      assert (NU : 0 <= INR (length cs) * (d + u)) by (apply Rmult_le_pos; lra).
      assert (LK : L <= INR K * L).
      { assert (1 <= INR K) by (change 1 with (INR 1); apply le_INR; exact K1). nra. }
      assert (KK : INR k * L <= INR K * L) by (apply Rmult_le_compat_r; [exact HL | apply le_INR; lia]).
      assert (E0 : forall x, 0 <= x -> 1 <= exp x) by (intros x Hx; rewrite <- exp_0; apply exp_le; exact Hx).
      assert (SZ : sized (INR K * L) p).
      { destruct Pc as [->|Pc]; [left; reflexivity|]. right. split.
        - apply Rle_trans with (exp (- (INR k * L))); [apply exp_le; lra | apply Pc].
        - pose proof (E0 (INR K * L) ltac:(lra)). lra. }
      assert (SZ1 : sized L p1).
      { destruct P1 as [->|P1]; [left; reflexivity|]. right. pose proof (E0 L HL). lra. }
      assert (S' : stands_for (D + d + u) (r_add m c c1) (p * p1)).
      { apply (sf_add m u B Hm D d (INR K * L) L); try assumption; lra. }
      cbn [fold_left fold_right]. rewrite <- Rmult_assoc.
      replace (D + (INR (length cs) + 1) * (d + u)) with (D + d + u + INR (length cs) * (d + u)) by ring.
      apply (IH Hp (D + d + u) (S k)); try lra; try assumption; [|lia].
      destruct Pc as [->|Pc]; [left; ring|]. destruct P1 as [->|P1]; [left; ring|]. right.
      rewrite S_INR. replace (- ((INR k + 1) * L)) with (- (INR k * L) + - L) by ring. rewrite exp_plus.
      pose proof (exp_pos (- (INR k * L))). pose proof (exp_pos (- L)). split.
      + apply Rmult_le_compat; lra.
      + nra.
  Qed.
End Norm.

(** The exact table, in terms of the specification of C13. *)
Lemma exact_table (bs : list (lm_scores R * R)) : forall acc : list (str * car R_field), NoDup (map fst acc) ->
  exists acc', fold_left (fun xs '(sc, q) => mix_results (F := R_field) sc (Val (F := R_field) q) xs) bs
                 (HubMix.vals (F := R_field) acc) = HubMix.vals (F := R_field) acc' /\
    NoDup (map fst acc') /\
    (forall k, In k (map fst acc') <->
       In k (map fst acc) \/ exists sc, In sc (map fst bs) /\ In k (map fst (sc_entries sc))) /\
    (forall k, prob_at (F := R_field) k acc' = Rplus (prob_at (F := R_field) k acc) (mix_at (F := R_field) (map snd bs) (map fst bs) k)) /\
    fsum (F := R_field) (map snd acc') = Rplus (fsum (F := R_field) (map snd acc)) (mix_total (F := R_field) (map snd bs) (map fst bs)).
Proof.
  induction bs as [|[sc q] bs IH]; intros acc N; cbn [fold_left map fst snd].
  - exists acc. split; [reflexivity|]. split; [exact N|]. split; [|split].
    + intro k. split; [auto|]. intros [H|(sc & [] & _)]. exact H.
    + intro k. symmetry. exact (Rplus_0_r _).
    + symmetry. exact (Rplus_0_r _).
  - destruct (mix_entries (F := R_field) (sc_entries sc) q acc N) as (acc1 & A1 & A2 & A3 & A4 & A5).
    assert (A1' : mix_results (F := R_field) sc (Val (F := R_field) q) (HubMix.vals (F := R_field) acc) =
      HubMix.vals (F := R_field) acc1) by exact A1.
    rewrite A1'. destruct (IH acc1 A2) as (acc' & B1 & B2 & B3 & B4 & B5).
    exists acc'. split; [exact B1|]. split; [exact B2|]. split; [|split].
    + intro k. rewrite B3, A3. cbn [In]. split.
      * intros [[H|H]|(s & H1 & H2)]; eauto 10.
      * intros [H|(s & [<-|H1] & H2)]; eauto 10.
    + intro k. rewrite B4, A4. exact (Rplus_assoc _ _ _).
    + rewrite B5, A5. exact (Rplus_assoc _ _ _).
Qed.

(** An answer is determined by being a mixture. *)
Lemma sorted_same (l l' : list str) : StronglySorted str_lt l -> StronglySorted str_lt l' ->
  (forall k, In k l <-> In k l') -> l = l'.
Proof.
  assert (IR : forall a, ~ str_lt a a).
  { intros a H. unfold str_lt in H. pose proof (str_eqb_refl a) as E. unfold str_eqb in E.
    rewrite H in E. discriminate. }
  intros S. revert l'. induction S as [|a l S IH F]; intros l' S' K.
  - destruct l' as [|b l']; [reflexivity|]. destruct (proj2 (K b) (or_introl eq_refl)).
  - destruct S' as [|b l' S' F']; [destruct (proj1 (K a) (or_introl eq_refl))|].
    rewrite Forall_forall in F, F'.
    assert (a = b).
    { destruct (proj1 (K a) (or_introl eq_refl)) as [E|E]; [auto|].
      destruct (proj2 (K b) (or_introl eq_refl)) as [E'|E']; [auto|].
      destruct (IR a). apply str_lt_trans with b; auto. }
    subst b. f_equal. apply IH; [exact S'|]. intro k. specialize (K k). cbn [In] in K. split; intro H.
    + destruct (proj1 K (or_intror H)) as [<-|H']; [destruct (IR a); auto | exact H'].
    + destruct (proj2 K (or_intror H)) as [<-|H']; [destruct (IR a); auto | exact H'].
Qed.

Lemma mixture_unique (ws : list R) scs r r' :
  is_mixture (F := R_field) ws scs r -> is_mixture (F := R_field) ws scs r' -> sc_entries r = sc_entries r'.
Proof.
  intros [S K P _] [S' K' P' _].
  assert (E : map fst (sc_entries r) = map fst (sc_entries r')).
  { apply sorted_same; auto. intro k. rewrite K, K'. reflexivity. }
  clear S S' K K'. revert E P P'. generalize (sc_entries r) as l, (sc_entries r') as l'.
  induction l as [|[k v] l IH]; intros [|[k' v'] l'] E P P'; try discriminate; [reflexivity|].
  cbn [map fst] in E. injection E as <- E. f_equal.
  - f_equal. rewrite (P k v), (P' k v') by (left; reflexivity). reflexivity.
  - apply IH; auto; intros k0 v0 H; [apply P | apply P']; right; exact H.
Qed.
