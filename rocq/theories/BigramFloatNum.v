(** Facts about the double arithmetic used by [BigramFloatModel]. *)
From Coq Require Import ZArith Reals Lia Lra.
From Flocq Require Import Core BinarySingleNaN Relative.
From Verif Require Import TextModel BigramFloatModel.
Local Open Scope Z_scope.

(** Rounding of a real number to the nearest double (ties to even), ignoring overflow. *)
Definition rnd (x : R) : R := round radix2 (FLT_exp (-1074) 53) ZnearestE x.
Definition val (x : double) : R := B2R x.
Definition finite (x : double) : bool := is_finite x.

Lemma fexp_eq : SpecFloat.fexp 53 1024 = FLT_exp (-1074) 53.
Proof. reflexivity. Qed.

#[global] Instance prec_gt : Prec_gt_0 53. Proof. reflexivity. Qed.

Lemma rnd_le x y : (x <= y)%R -> (rnd x <= rnd y)%R.
Proof. apply round_le; typeclasses eauto. Qed.

Lemma format_Z z : Z.abs z <= 2 ^ 53 -> generic_format radix2 (FLT_exp (-1074) 53) (IZR z).
Proof.
  intros H. destruct (Z.eq_dec (Z.abs z) (2 ^ 53)) as [E|N].
  - assert (G : generic_format radix2 (FLT_exp (-1074) 53) (bpow radix2 53)).
    { apply generic_format_bpow. unfold FLT_exp. lia. }
    destruct (Z.abs_eq_or_opp z) as [A|A].
    + rewrite <- A, E. exact G.
    + replace z with (- (2 ^ 53)) by lia. rewrite opp_IZR. apply generic_format_opp. exact G.
  - apply generic_format_FLT. exists (Float radix2 z 0); simpl; [unfold F2R; simpl; ring| |lia]. lia.
Qed.

Lemma rnd_Z z : Z.abs z <= 2 ^ 53 -> rnd (IZR z) = IZR z.
Proof. intros H. apply round_generic; [typeclasses eauto|]. apply format_Z; auto. Qed.

Lemma format_pow n : 0 <= n -> generic_format radix2 (FLT_exp (-1074) 53) (IZR (2 ^ n)).
Proof.
  intros H. change 2 with (radix_val radix2). rewrite IZR_Zpower by exact H.
  apply generic_format_bpow. unfold FLT_exp. lia.
Qed.

Lemma rnd_pow n : 0 <= n -> rnd (IZR (2 ^ n)) = IZR (2 ^ n).
Proof. intros H. apply round_generic; [typeclasses eauto|]. apply format_pow; auto. Qed.

Lemma rnd_nonneg x : (0 <= x)%R -> (0 <= rnd x)%R.
Proof. intros H. replace 0%R with (rnd 0) by (apply round_0; typeclasses eauto). apply rnd_le; auto. Qed.

Lemma big_lt x n : (0 <= x <= IZR (2 ^ n))%R -> 0 <= n < 1024 -> (Rabs (rnd x) < bpow radix2 1024)%R.
Proof.
  intros [H0 H] Hn. rewrite Rabs_pos_eq by (apply rnd_nonneg; auto).
  apply Rle_lt_trans with (rnd (IZR (2 ^ n))); [apply rnd_le; auto|]. rewrite rnd_pow by lia.
  change 2 with (radix_val radix2). rewrite IZR_Zpower by lia. apply bpow_lt. lia.
Qed.

Lemma d_of_Z_correct z n : 0 <= z <= 2 ^ n -> 0 <= n < 1024 ->
  finite (d_of_Z z) = true /\ val (d_of_Z z) = rnd (IZR z).
Proof.
  intros Hz Hn. unfold d_of_Z, finite, val.
  pose proof (binary_normalize_correct 53 1024 prec53 emax1024 mode_NE z 0 false) as H.
  cbv zeta in H. replace (F2R (Float radix2 z 0)) with (IZR z) in H by (unfold F2R; simpl; ring).
  rewrite Rlt_bool_true in H.
  - destruct H as [H1 [H2 _]]. auto.
  - apply (big_lt (IZR z) n); auto. split; apply IZR_le; lia.
Qed.

Lemma d_of_Z_exact z : 0 <= z <= 2 ^ 53 -> finite (d_of_Z z) = true /\ val (d_of_Z z) = IZR z.
Proof.
  intros H. destruct (d_of_Z_correct z 53 H ltac:(lia)) as [A B]. split; auto.
  rewrite B. apply rnd_Z. lia.
Qed.

Lemma d_add_correct x y n : finite x = true -> finite y = true ->
  (0 <= val x + val y <= IZR (2 ^ n))%R -> 0 <= n < 1024 ->
  finite (d_add x y) = true /\ val (d_add x y) = rnd (val x + val y).
Proof.
  intros Fx Fy H Hn. unfold d_add, finite, val in *.
  pose proof (Bplus_correct 53 1024 prec53 emax1024 mode_NE x y Fx Fy) as K.
  rewrite Rlt_bool_true in K by (apply (big_lt _ n); auto). destruct K as [K1 [K2 _]]. auto.
Qed.

Lemma d_div_correct x y n : finite x = true -> val y <> 0%R ->
  (0 <= val x / val y <= IZR (2 ^ n))%R -> 0 <= n < 1024 ->
  finite (d_div x y) = true /\ val (d_div x y) = rnd (val x / val y).
Proof.
  intros Fx Hy H Hn. unfold d_div, finite, val in *.
  pose proof (Bdiv_correct 53 1024 prec53 emax1024 mode_NE x y Hy) as K.
  rewrite Rlt_bool_true in K by (apply (big_lt _ n); auto). destruct K as [K1 [K2 _]].
  rewrite K2. auto.
Qed.

(** Adding at most 2^63 to 2^117 is absorbed. *)
Lemma rnd_absorb : rnd (IZR (2 ^ 117 + 2 ^ 63)) = IZR (2 ^ 117).
Proof.
  destruct (d_of_Z_correct (2 ^ 117 + 2 ^ 63) 118 ltac:(lia) ltac:(lia)) as [_ A].
  destruct (d_of_Z_correct (2 ^ 117) 118 ltac:(lia) ltac:(lia)) as [_ B].
  rewrite rnd_pow in B by lia. rewrite <- A, <- B. f_equal.
  apply B2SF_inj. vm_compute. reflexivity.
Qed.

(** A double standing for the sum [n] of counts: exact up to 2^53, otherwise only bounded. *)
Definition near (x : double) (n : Z) : Prop :=
  finite x = true /\ 0 <= n /\
  (n <= 2 ^ 53 -> val x = IZR n) /\
  (2 ^ 53 <= n -> (IZR (2 ^ 53) <= val x <= IZR (2 ^ 117))%R).

Lemma near_of_Z n : 0 <= n <= 2 ^ 63 -> near (d_of_Z n) n.
Proof.
  intros H. destruct (d_of_Z_correct n 63 H ltac:(lia)) as [A B].
  split; [exact A|]. split; [lia|]. rewrite B. split.
  - intros L. apply rnd_Z. lia.
  - intros L. split.
    + rewrite <- (rnd_pow 53) by lia. apply rnd_le, IZR_le. lia.
    + rewrite <- (rnd_pow 117) by lia. apply rnd_le, IZR_le. lia.
Qed.

Lemma near_bounds x n : near x n -> (0 <= val x <= IZR (2 ^ 117))%R.
Proof.
  intros [_ [H0 [H1 H2]]]. destruct (Z.le_gt_cases n (2 ^ 53)).
  - rewrite H1 by lia. split; apply IZR_le; lia.
  - destruct (H2 ltac:(lia)) as [A B]. split; [|exact B].
    apply Rle_trans with (IZR (2 ^ 53)); [apply IZR_le; lia|exact A].
Qed.

Lemma near_add x n c : near x n -> 0 <= c <= int64_max -> near (d_add x (d_of_Z c)) (n + c).
Proof.
  intros N Hc. assert (Hc' : 0 <= c <= 2 ^ 63) by (unfold int64_max in Hc; lia).
  pose proof (near_bounds x n N) as Bx. pose proof (near_of_Z c Hc') as Nc.
  pose proof (near_bounds _ _ Nc) as Bc.
  assert (Bc' : (val (d_of_Z c) <= IZR (2 ^ 63))%R).
  { destruct (d_of_Z_correct c 63 Hc' ltac:(lia)) as [_ B]. rewrite B.
    rewrite <- (rnd_pow 63) by lia. apply rnd_le, IZR_le. lia. }
  destruct (d_add_correct x (d_of_Z c) 118) as [A B].
  - apply N.
  - apply Nc.
  - replace (IZR (2 ^ 118)) with (IZR (2 ^ 117) + IZR (2 ^ 117))%R
      by (rewrite <- plus_IZR; f_equal; reflexivity). lra.
  - lia.
  - destruct N as [F [H0 [H1 H2]]]. destruct Nc as [Fc [_ [C1 C2]]].
    split; [exact A|]. split; [lia|]. rewrite B. split.
    + intros L. rewrite H1, C1 by lia. rewrite <- plus_IZR. apply rnd_Z. lia.
    + intros L. split.
      * rewrite <- (rnd_pow 53) by lia. apply rnd_le.
        destruct (Z.le_gt_cases n (2 ^ 53)) as [Ln|Ln].
        -- rewrite H1 by lia. destruct (Z.le_gt_cases c (2 ^ 53)) as [Lc|Lc].
           ++ rewrite C1 by lia. rewrite <- plus_IZR. apply IZR_le. lia.
           ++ destruct (C2 ltac:(lia)) as [D _]. pose proof (IZR_le 0 n H0). lra.
        -- destruct (H2 ltac:(lia)) as [D _]. lra.
      * rewrite <- rnd_absorb. apply rnd_le. rewrite plus_IZR. lra.
Qed.

(** ** The quotient *)

Lemma quotient_relative c n : 1 <= c -> c <= n -> n <= 2 ^ 53 ->
  (Rabs (rnd (IZR c / IZR n) - IZR c / IZR n) <= IZR c / IZR n * / IZR (2 ^ 53))%R.
Proof.
  intros Hc Hn Hb.
  assert (Pn : (0 < IZR n)%R) by (apply (IZR_lt 0); lia).
  assert (Pc : (1 <= IZR c)%R) by (apply (IZR_le 1); lia).
  assert (Q : (/ IZR (2 ^ 53) <= IZR c / IZR n)%R).
  { apply Rle_trans with (/ IZR n)%R.
    - apply Rinv_le; [exact Pn|]. apply IZR_le. exact Hb.
    - unfold Rdiv. rewrite <- (Rmult_1_l (/ IZR n)) at 1. apply Rmult_le_compat_r; [|exact Pc].
      left. apply Rinv_0_lt_compat. exact Pn. }
  assert (P53 : (/ IZR (2 ^ 53) = bpow radix2 (-53))%R) by reflexivity.
  assert (Q0 : (0 < IZR c / IZR n)%R).
  { apply Rlt_le_trans with (2 := Q). apply Rinv_0_lt_compat. apply (IZR_lt 0). lia. }
  pose proof (relative_error_N_FLT radix2 (-1074) 53 eq_refl (fun z => negb (Z.even z)) (IZR c / IZR n)) as E.
  assert (L : (bpow radix2 (-1074 + 53 - 1) <= Rabs (IZR c / IZR n))%R).
  { rewrite Rabs_pos_eq by lra. apply Rle_trans with (2 := Q). rewrite P53. apply bpow_le. lia. }
  specialize (E L). rewrite (Rabs_pos_eq (IZR c / IZR n)) in E by lra.
  apply Rle_trans with (1 := E). apply Req_le.
  rewrite P53. replace (bpow radix2 (- (53) + 1)) with (2 * bpow radix2 (-53))%R
    by (change (- (53) + 1) with (-53 + 1); rewrite bpow_plus; change (bpow radix2 1) with 2%R; ring).
  field. lra.
Qed.

Lemma quotient_exact c n : 0 <= c <= n -> n = 2 ^ 53 -> rnd (IZR c / IZR n) = (IZR c / IZR n)%R.
Proof.
  intros Hc ->. apply round_generic; [typeclasses eauto|].
  destruct (Z.eq_dec c (2 ^ 53)) as [->|N].
  - replace (IZR (2 ^ 53) / IZR (2 ^ 53))%R with (IZR 1) by (field; apply (IZR_neq (2^53) 0); lia).
    apply format_Z. lia.
  - apply generic_format_FLT. exists (Float radix2 c (-53)); simpl; [|lia|lia].
    unfold F2R. simpl. reflexivity.
Qed.

Lemma quotient_bounds c n : 1 <= c -> c <= n -> n <= 2 ^ 53 ->
  (0 < rnd (IZR c / IZR n) <= 1)%R.
Proof.
  intros Hc Hn Hb.
  assert (Pn : (0 < IZR n)%R) by (apply (IZR_lt 0); lia).
  assert (Pc : (1 <= IZR c)%R) by (apply (IZR_le 1); lia).
  assert (Q0 : (0 < IZR c / IZR n)%R) by (apply Rdiv_lt_0_compat; lra).
  pose proof (quotient_relative c n Hc Hn Hb) as E. apply Rabs_le_inv in E.
  split.
  - assert (I : (/ IZR (2 ^ 53) <= / 2)%R) by (apply Rinv_le; [lra|apply (IZR_le 2); lia]). nra.
  - replace 1%R with (rnd (IZR 1)) by (apply rnd_Z; lia). apply rnd_le.
    apply Rmult_le_reg_r with (IZR n); [exact Pn|]. unfold Rdiv. rewrite Rmult_assoc, Rinv_l by lra.
    rewrite Rmult_1_r, Rmult_1_l. apply IZR_le. exact Hn.
Qed.

Lemma quotient_lt c d n : 1 <= c -> c < d -> c + d <= n -> n <= 2 ^ 53 ->
  (rnd (IZR c / IZR n) < rnd (IZR d / IZR n))%R.
Proof.
  intros Hc Hd Hn Hb.
  assert (Pn : (0 < IZR n)%R) by (apply (IZR_lt 0); lia).
  assert (L : (IZR c / IZR n < IZR d / IZR n)%R).
  { apply Rmult_lt_compat_r; [apply Rinv_0_lt_compat; exact Pn|]. apply IZR_lt. lia. }
  destruct (Z.eq_dec n (2 ^ 53)) as [En|Nn].
  - rewrite !quotient_exact by lia. exact L.
  - pose proof (quotient_relative c n ltac:(lia) ltac:(lia) Hb) as E1. apply Rabs_le_inv in E1.
    pose proof (quotient_relative d n ltac:(lia) ltac:(lia) Hb) as E2. apply Rabs_le_inv in E2.
    assert (I : (0 < / IZR n)%R) by (apply Rinv_0_lt_compat; exact Pn).
    set (i := (/ IZR n)%R) in *. unfold Rdiv in *. fold i in E1, E2 |- *.
    assert (S : ((IZR c * i + IZR d * i) * / IZR (2 ^ 53) < i)%R).
    { apply Rmult_lt_reg_r with (IZR (2 ^ 53)); [apply (IZR_lt 0); lia|].
      rewrite Rmult_assoc, Rinv_l by (apply (IZR_neq (2 ^ 53) 0); lia).
      rewrite Rmult_1_r, <- Rmult_plus_distr_r, Rmult_comm. apply Rmult_lt_compat_l; [exact I|].
      rewrite <- plus_IZR. apply IZR_lt. lia. }
    assert (D : (IZR c * i + i <= IZR d * i)%R).
    { assert (D1 : (IZR c + 1 <= IZR d)%R) by (rewrite <- plus_IZR; apply IZR_le; lia). nra. }
    rewrite Rmult_plus_distr_r in S. lra.
Qed.

(** Whatever the normalizer, as long as it is at least 1: the quotient is finite and positive. *)
Lemma quotient_positive c x n : 1 <= c <= int64_max -> near x n -> 1 <= n ->
  finite (d_div (d_of_Z c) x) = true /\ (0 < val (d_div (d_of_Z c) x))%R.
Proof.
  intros Hc N Hn. assert (Hc' : 0 <= c <= 2 ^ 63) by (unfold int64_max in Hc; lia).
  destruct (d_of_Z_correct c 63 Hc' ltac:(lia)) as [Fc Vc].
  assert (Bc : (1 <= val (d_of_Z c) <= IZR (2 ^ 63))%R).
  { rewrite Vc. split.
    - replace 1%R with (rnd (IZR 1)) by (apply rnd_Z; lia). apply rnd_le, IZR_le. lia.
    - rewrite <- (rnd_pow 63) by lia. apply rnd_le, IZR_le. lia. }
  assert (Bx : (1 <= val x <= IZR (2 ^ 117))%R).
  { split; [|apply (near_bounds x n N)]. destruct N as [_ [_ [H1 H2]]].
    destruct (Z.le_gt_cases n (2 ^ 53)).
    - rewrite H1 by lia. apply (IZR_le 1). lia.
    - destruct (H2 ltac:(lia)) as [A _]. apply Rle_trans with (2 := A). apply (IZR_le 1). lia. }
  assert (I : (/ IZR (2 ^ 117) <= / val x)%R) by (apply Rinv_le; lra).
  assert (I1 : (/ val x <= 1)%R) by (rewrite <- Rinv_1; apply Rinv_le; lra).
  assert (P : (0 < / IZR (2 ^ 117))%R) by (apply Rinv_0_lt_compat, (IZR_lt 0); lia).
  assert (Q : (/ IZR (2 ^ 117) <= val (d_of_Z c) / val x <= IZR (2 ^ 63))%R).
  { unfold Rdiv. split; nra. }
  destruct (d_div_correct (d_of_Z c) x 63 Fc) as [A B]; [lra|lra|lia|].
  split; [exact A|]. rewrite B.
  apply Rlt_le_trans with (bpow radix2 (-117)); [apply bpow_gt_0|].
  replace (bpow radix2 (-117)) with (rnd (bpow radix2 (-117))).
  - apply rnd_le. apply Q.
  - apply round_generic; [typeclasses eauto|]. apply generic_format_bpow. unfold FLT_exp. lia.
Qed.

Lemma quotient_rounded c x n : 1 <= c <= n -> n <= 2 ^ 53 -> near x n ->
  finite (d_div (d_of_Z c) x) = true /\ val (d_div (d_of_Z c) x) = rnd (IZR c / IZR n).
Proof.
  intros Hc Hn N. destruct (d_of_Z_exact c ltac:(lia)) as [Fc Vc].
  destruct N as [_ [_ [Vx _]]]. specialize (Vx Hn).
  assert (Pn : (0 < IZR n)%R) by (apply (IZR_lt 0); lia).
  assert (Pc : (0 <= IZR c)%R) by (apply (IZR_le 0); lia).
  destruct (d_div_correct (d_of_Z c) x 0 Fc) as [A B].
  - rewrite Vx. lra.
  - rewrite Vc, Vx. split.
    + apply Rmult_le_pos; [exact Pc|]. left. apply Rinv_0_lt_compat. exact Pn.
    + change (2 ^ 0) with 1. apply Rmult_le_reg_r with (IZR n); [exact Pn|]. unfold Rdiv.
      rewrite Rmult_assoc, Rinv_l by lra. rewrite Rmult_1_r, Rmult_1_l. apply IZR_le. lia.
  - lia.
  - rewrite <- Vc, <- Vx at 1. auto.
Qed.
