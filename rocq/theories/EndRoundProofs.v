(** Proofs for C79: the mixture of answers that are nearly right is nearly right. *)
From Coq Require Import ZArith Reals Lra Lia Sorted Permutation.
From Verif Require Import Base Field FieldR LmModel HubModel HubSpec HubMix HubProps LogModel RoundModel RoundSpec
  RoundProofs RoundProps PpmRoundProofs2 EndRoundSpec.
Local Open Scope R_scope.

Lemma close_trans d e p y z : 0 <= p -> close d p y -> close e y z -> close (d + e) p z.
Proof.
  intros P [A B] [C D]. pose proof (exp_pos (- e)). pose proof (exp_pos e).
  unfold close. rewrite Ropp_plus_distr, !exp_plus, <- !Rmult_assoc. split.
  - apply Rle_trans with (y * exp (- e)); [apply Rmult_le_compat_r; lra | exact C].
  - apply Rle_trans with (y * exp e); [exact D | apply Rmult_le_compat_r; lra].
Qed.

Lemma close_ratio d a b x y : 0 <= a -> 0 < b -> close d a x -> close d b y -> close (2 * d) (a / b) (x / y).
Proof.
  intros Ha Hb [A1 A2] [B1 B2].
  assert (Ny : 0 < y). { pose proof (exp_pos (- d)). nra. }
  pose proof (exp_pos d) as Ed. pose proof (exp_pos (- d)) as En.
  assert (EE : exp d * exp (- d) = 1). { rewrite <- exp_plus. rewrite Rplus_opp_r. apply exp_0. }
  assert (I1 : / y <= / b * exp d).
  { apply Rmult_le_reg_r with y; [exact Ny|]. rewrite Rinv_l by lra.
    replace (/ b * exp d * y) with (/ b * (y * exp d)) by ring.
    apply Rmult_le_reg_l with b; [exact Hb|]. rewrite <- Rmult_assoc, Rinv_r, Rmult_1_l, Rmult_1_r by lra.
    apply Rmult_le_compat_r with (r := exp d) in B1; [|lra].
    replace (b * exp (- d) * exp d) with (b * (exp d * exp (- d))) in B1 by ring. rewrite EE in B1. lra. }
  assert (I2 : / b * exp (- d) <= / y).
  { apply Rmult_le_reg_r with y; [exact Ny|]. rewrite Rinv_l by lra.
    replace (/ b * exp (- d) * y) with (/ b * (y * exp (- d))) by ring.
    apply Rmult_le_reg_l with b; [exact Hb|]. rewrite <- Rmult_assoc, Rinv_r, Rmult_1_l, Rmult_1_r by lra.
    apply Rmult_le_compat_r with (r := exp (- d)) in B2; [|lra].
    replace (b * exp d * exp (- d)) with (b * (exp d * exp (- d))) in B2 by ring. rewrite EE in B2. lra. }
  pose proof (Rinv_0_lt_compat b Hb) as Ib. pose proof (Rinv_0_lt_compat y Ny) as Iy.
  unfold close. replace (2 * d) with (d + d) by ring. rewrite Ropp_plus_distr, !exp_plus. unfold Rdiv.
  assert (X0 : 0 <= x). { pose proof (Rmult_le_pos a (exp (- d)) Ha ltac:(lra)). lra. }
  split.
  - replace (a * / b * (exp (- d) * exp (- d))) with (a * exp (- d) * (/ b * exp (- d))) by ring.
    apply Rmult_le_compat; try assumption; try (apply Rmult_le_pos; lra).
  - replace (a * / b * (exp d * exp d)) with (a * exp d * (/ b * exp d)) by ring.
    apply Rmult_le_compat; try assumption; try lra.
Qed.

Definition nonneg_entries (l : list (str * R)) : Prop := Forall (fun x => 0 <= snd x) l.

Lemma near_keys d a b : near d a b -> map fst a = map fst b.
Proof. induction 1 as [|x y a b [E _] H IH]; [reflexivity|]. cbn [map]. congruence. Qed.

Lemma near_length d a b : near d a b -> length a = length b.
Proof. induction 1; cbn [length]; congruence. Qed.

Lemma near_sum d a b : near d a b -> close d (rsum (map snd b)) (rsum (map snd a)).
Proof.
  induction 1 as [|x y a b [_ C] H IH]; [unfold close; cbn; lra|].
  cbn [map]. rewrite !rsum_cons. apply close_add; assumption.
Qed.

Lemma near_filter d a b k : near d a b ->
  near d (filter (fun e => str_eqb (fst e) k) a) (filter (fun e => str_eqb (fst e) k) b).
Proof.
  induction 1 as [|x y a b [E C] H IH]; [constructor|]. cbn [filter]. rewrite E.
  destruct (str_eqb (fst y) k); [|exact IH]. constructor; [split; assumption | exact IH].
Qed.

Lemma nonneg_sum l : nonneg_entries l -> 0 <= rsum (map snd l).
Proof. induction 1 as [|x l A H IH]; [cbn; lra|]. cbn [map]. rewrite rsum_cons. lra. Qed.
Lemma nonneg_filter f l : nonneg_entries l -> nonneg_entries (filter f l).
Proof. induction 1 as [|x l A H IH]; [constructor|]. cbn [filter]. destruct (f x); [constructor; assumption | exact IH]. Qed.

(** Weighted sums. *)
Lemma weighted_close (f : lm_scores R -> R) d cs es : Forall2 (fun a b => close d (f b) (f a)) cs es ->
  forall ws, Forall (fun w => 0 <= w) ws ->
  close d (rsum (map (fun '(w, sc) => w * f sc) (combine ws es))) (rsum (map (fun '(w, sc) => w * f sc) (combine ws cs))).
Proof.
  induction 1 as [|a b cs es C H IH]; intros [|w ws] W; cbn [combine map]; try (unfold close; cbn; lra).
  apply Forall_cons_iff in W. destruct W as [W0 W]. rewrite !rsum_cons.
  apply close_add; [apply close_scale; assumption | apply IH; exact W].
Qed.
Lemma weighted_nonneg (f : lm_scores R -> R) es : Forall (fun b => 0 <= f b) es ->
  forall ws, Forall (fun w => 0 <= w) ws -> 0 <= rsum (map (fun '(w, sc) => w * f sc) (combine ws es)).
Proof.
  induction 1 as [|b es C H IH]; intros [|w ws] W; cbn [combine map]; try (cbn; lra).
  apply Forall_cons_iff in W. destruct W as [W0 W]. rewrite rsum_cons. pose proof (IH ws W).
  pose proof (Rmult_le_pos _ _ W0 C). lra.
Qed.

Lemma mix_at_sum (ws : list R) scs k : mix_at (F := R_field) ws scs k =
  rsum (map (fun '(w, sc) => w * rsum (map snd (filter (fun e => str_eqb (fst e) k) (sc_entries sc)))) (combine ws scs)).
Proof.
  unfold mix_at. etransitivity; [apply fsum_rsum|]. apply (f_equal rsum), map_ext. intros [w sc]. unfold prob_at.
  apply (f_equal (Rmult w)). apply fsum_rsum.
Qed.
Lemma mix_total_sum (ws : list R) scs : mix_total (F := R_field) ws scs =
  rsum (map (fun '(w, sc) => w * rsum (map snd (sc_entries sc))) (combine ws scs)).
Proof.
  unfold mix_total. etransitivity; [apply fsum_rsum|]. apply (f_equal rsum), map_ext. intros [w sc].
  apply (f_equal (Rmult w)). apply fsum_rsum.
Qed.

Section Stable.
  Variables (d : R) (cs es : list (lm_scores R)) (ws : list R).
  Hypothesis Hn : all_near d cs es.
  Hypothesis He : Forall (fun sc => nonneg_entries (sc_entries sc)) es.
  Hypothesis Hw : Forall (fun w => 0 <= w) ws.

  Lemma at_close k : 0 <= mix_at (F := R_field) ws es k /\
    close d (mix_at (F := R_field) ws es k) (mix_at (F := R_field) ws cs k).
  Proof.
    rewrite !mix_at_sum.
    set (f := fun sc : lm_scores R => rsum (map snd (filter (fun e => str_eqb (fst e) k) (sc_entries sc)))).
    split; [apply (weighted_nonneg f); [|exact Hw] | apply (weighted_close f); [|exact Hw]].
    - eapply Forall_impl; [|exact He]. intros sc N. apply nonneg_sum, nonneg_filter, N.
    - pose proof Hn as Q. clear Hn He. unfold all_near in Q. induction Q as [|a b cs' es' N H IH]; [constructor|]. constructor; [|exact IH].
      apply near_sum, near_filter, N.
  Qed.
  Lemma total_close : 0 <= mix_total (F := R_field) ws es /\
    close d (mix_total (F := R_field) ws es) (mix_total (F := R_field) ws cs).
  Proof.
    rewrite !mix_total_sum. set (f := fun sc : lm_scores R => rsum (map snd (sc_entries sc))).
    split; [apply (weighted_nonneg f); [|exact Hw] | apply (weighted_close f); [|exact Hw]].
    - eapply Forall_impl; [|exact He]. intros sc N. apply nonneg_sum, N.
    - pose proof Hn as Q. clear Hn He. unfold all_near in Q. induction Q as [|a b cs' es' N H IH]; [constructor|]. constructor; [|exact IH].
      apply near_sum, N.
  Qed.

  Lemma same_symbols k : (exists sc, In sc cs /\ In k (map fst (sc_entries sc))) <->
    (exists sc, In sc es /\ In k (map fst (sc_entries sc))).
  Proof.
    pose proof Hn as Q. clear Hn He Hw. unfold all_near in Q. induction Q as [|a b cs' es' N H IH].
    - split; intros (sc & [] & _).
    - pose proof (near_keys _ _ _ N) as K. split; intros (sc & [<-|I] & J).
      + exists b. split; [left; reflexivity|]. rewrite <- K. exact J.
      + destruct (proj1 IH (ex_intro _ sc (conj I J))) as (sc' & I' & J'). exists sc'. split; [right; exact I' | exact J'].
      + exists a. split; [left; reflexivity|]. rewrite K. exact J.
      + destruct (proj2 IH (ex_intro _ sc (conj I J))) as (sc' & I' & J'). exists sc'. split; [right; exact I' | exact J'].
  Qed.

  (** The two mixtures list the same symbols, with probabilities right up to twice the error. *)
  Lemma mixture_stable rc re :
    is_mixture (F := R_field) ws cs rc -> is_mixture (F := R_field) ws es re -> 0 < mix_total (F := R_field) ws es ->
    Forall2 (fun a b => fst a = fst b /\
        exists p z, snd b = Val (F := R_field) p /\ snd a = Val (F := R_field) z /\ 0 <= p /\ close (2 * d) p z)
      (sc_entries rc) (sc_entries re).
  Proof.
    intros [S K P _] [S' K' P' _] T.
    assert (E : map fst (sc_entries rc) = map fst (sc_entries re)).
    { apply sorted_same; auto. intro k. rewrite K, K'. apply same_symbols. }
    clear S S' K K'. destruct total_close as [_ TC].
    revert E P P'. generalize (sc_entries rc) as l, (sc_entries re) as l'.
    induction l as [|[k v] l IH]; intros [|[k' v'] l'] E P P'; try discriminate; [constructor|].
    cbn [map fst] in E. injection E as <- E. constructor.
    - cbn [fst snd]. split; [reflexivity|]. destruct (at_close k) as [A0 AC].
      exists (mix_at (F := R_field) ws es k / mix_total (F := R_field) ws es),
             (mix_at (F := R_field) ws cs k / mix_total (F := R_field) ws cs).
      split; [apply (P' k v'); left; reflexivity|]. split; [apply (P k v); left; reflexivity|].
      split; [|apply close_ratio; assumption].
      apply Rmult_le_pos; [exact A0|]. left. apply Rinv_0_lt_compat. exact T.
    - apply IH; [exact E | |]; intros k0 v0 I; [apply P | apply P']; right; exact I.
  Qed.
End Stable.
