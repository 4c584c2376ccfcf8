(** Rounding errors in the word model's weight vectors. *)
From Coq Require Import Reals Lra Lia.
From Verif Require Import Base Field FieldR LmModel HubModel LogModel LogProps RoundModel RoundSpec RoundProofs
  WordRoundModel WordRoundSpec.
Local Open Scope R_scope.

(** Each entry exceeds the one before by the probability of its word, up to [e]. *)
Fixpoint steps (e v : R) (vs ps : list R) : Prop :=
  match vs, ps with
  | [], [] => True
  | v1 :: vs', p :: ps' => Rabs (v1 - v - p) <= e /\ steps e v1 vs' ps'
  | _, _ => False
  end.
Definition table (e : R) (cs : list cost) (ps : list R) : Prop :=
  exists vs, Forall2 has_value cs vs /\ steps e 0 vs ps.

Lemma has_value_nonneg c v : has_value c v -> 0 <= v.
Proof. destruct c; cbn; intros; subst; try contradiction; try lra. left. apply exp_pos. Qed.
Lemma prob_value c : proper c -> has_value c (prob c).
Proof. destruct c; cbn; intros; try contradiction; reflexivity. Qed.
Lemma prob_nonneg c : 0 <= prob c.
Proof. destruct c; cbn; try lra. left. apply exp_pos. Qed.
Lemma steps_length e : forall vs v ps, steps e v vs ps -> length vs = length ps.
Proof. induction vs as [|x vs IH]; intros v [|p ps]; cbn; intro H; try contradiction; auto.
  destruct H as [_ H]. f_equal. eapply IH. exact H. Qed.

Section Ops.
  Variable m : machine.
  Variable diff : R -> R -> cost.
  Variables u E V r : R.
  Hypothesis Hm : log_accurate u E V m diff.
  Hypothesis Hu : 0 <= u.
  Hypothesis HE : 0 <= E.
  Hypothesis Hr : V * u + E <= r.

  Lemma hv_sum a b x y : has_value a x -> has_value b y -> x + y <= V ->
    exists z, has_value (r_nls m a b) z /\ Rabs (z - (x + y)) <= r.
  Proof.
    intros Ha Hb HV. pose proof (has_value_nonneg _ _ Ha) as Px. pose proof (has_value_nonneg _ _ Hb) as Py.
    assert (Pr : 0 <= r) by nra.
    destruct a as [s| | |], b as [t| | |]; cbn in Ha, Hb; try contradiction; subst; cbn [r_nls neg_log_sum].
    - eexists. split; [reflexivity|]. eapply Rle_trans; [apply (la_sum _ _ _ _ _ Hm); lra|]. nra.
    - eexists. split; [reflexivity|]. rewrite Rplus_0_r. rewrite Rminus_diag_eq, Rabs_R0 by reflexivity. exact Pr.
    - eexists. split; [reflexivity|]. rewrite Rplus_0_l. rewrite Rminus_diag_eq, Rabs_R0 by reflexivity. exact Pr.
    - exists 0. split; [reflexivity|]. rewrite Rplus_0_l, Rminus_0_r, Rabs_R0. exact Pr.
  Qed.

  Lemma hv_add a b x y : has_value a x -> has_value b y -> x <= V -> y <= V -> x * y <= V ->
    exists z, has_value (r_add m a b) z /\ Rabs (z - x * y) <= r.
  Proof.
    intros Ha Hb HX HY HV. pose proof (has_value_nonneg _ _ Ha) as Px. pose proof (has_value_nonneg _ _ Hb) as Py.
    assert (Pr : 0 <= r) by (assert (0 <= V) by lra; nra).
    destruct a as [s| | |], b as [t| | |]; cbn in Ha, Hb; try contradiction; subst; cbn [r_add cadd].
    - eexists. split; [reflexivity|]. eapply Rle_trans; [apply (la_add _ _ _ _ _ Hm); assumption|].
      apply Rle_trans with (u * V + E); [|lra]. apply Rplus_le_compat_r. apply Rmult_le_compat_l; assumption.
    - exists 0. split; [reflexivity|]. rewrite Rmult_0_r, Rminus_0_r, Rabs_R0. exact Pr.
    - exists 0. split; [reflexivity|]. rewrite Rmult_0_l, Rminus_0_r, Rabs_R0. exact Pr.
    - exists 0. split; [reflexivity|]. rewrite Rmult_0_l, Rminus_0_r, Rabs_R0. exact Pr.
  Qed.

  (** The difference, cut off at 0. *)
  Lemma hv_diff a b x y : has_value a x -> has_value b y -> x <= V ->
    exists z, has_value (r_safe_diff diff a b) z /\
      ((x <= y /\ z = 0) \/ (y < x /\ Rabs (z - (x - y)) <= r)).
  Proof.
    intros Ha Hb HV. pose proof (has_value_nonneg _ _ Ha) as Px. pose proof (has_value_nonneg _ _ Hb) as Py.
    assert (Pr : 0 <= r) by (assert (0 <= V) by lra; nra).
    destruct a as [s| | |], b as [t| | |]; cbn in Ha, Hb; try contradiction; subst; unfold r_safe_diff; cbn [cge].
    - destruct (Rle_b t s) eqn:K.
      + exists 0. split; [reflexivity|]. left. split; [|reflexivity]. apply Rle_b_iff in K. apply exp_le. lra.
      + apply Rle_b_false in K. destruct (la_diff _ _ _ _ _ Hm s t ltac:(lra) HV) as (z & Z1 & Z2).
        exists z. split; [exact Z1|]. right. split; [apply exp_increasing; lra|].
        eapply Rle_trans; [exact Z2|]. pose proof (exp_pos (- s)). nra.
    - cbn [neg_log_diff]. eexists. split; [reflexivity|]. right. split; [apply exp_pos|].
      rewrite Rminus_0_r, Rminus_diag_eq, Rabs_R0 by reflexivity. exact Pr.
    - exists 0. split; [reflexivity|]. left. split; [|reflexivity]. left. apply exp_pos.
    - exists 0. split; [reflexivity|]. left. split; [lra|reflexivity].
  Qed.

End Ops.

Section Sums.
  Variable m : machine.
  Variable sums : nat -> nat -> machine.
  Variable diff : R -> R -> cost.
  Variables u E V r : R.
  Hypothesis Hm : log_accurate u E V m diff.
  Hypothesis Hsu : forall k i, log_accurate u E V (sums k i) diff.
  Hypothesis Hu : 0 <= u.
  Hypothesis HE : 0 <= E.
  Hypothesis Hr : V * u + E <= r.
  Variable k : nat.

  (** Summing up, at a state with no back-off. *)
  Lemma sum_up_ok e : 0 <= e -> 2 <= V -> r <= e -> forall ws i cum v s,
    Forall (fun w => match w with Some x => proper x | None => True end) ws ->
    has_value cum v -> v <= s -> 
    s + rsum (map (fun w => match w with Some x => prob x | None => 0 end) ws) + INR (length ws) * e <= 2 ->
    exists vs, Forall2 has_value (r_sum_up sums k i cum ws) vs /\
      steps e v vs (map (fun w => match w with Some x => prob x | None => 0 end) ws).
  Proof.
    intros He HV Hre. induction ws as [|w ws IH]; intros i cum v s Hw Hc Hs Hb.
    { exists []. split; [constructor | exact I]. }
    apply Forall_cons_iff in Hw. destruct Hw as [Hw Hws]. cbn [map length] in Hb. rewrite S_INR, rsum_cons in Hb.
    set (p := match w with Some x => prob x | None => 0 end) in *.
    assert (Pp : 0 <= p) by (unfold p; destruct w; [apply prob_nonneg | lra]).
    assert (Hown : has_value (match w with Some x => x | None => PInf end) p).
    { unfold p. destruct w as [x|]; [apply prob_value; exact Hw | reflexivity]. }
    assert (Hn : 0 <= INR (length ws) * e) by (apply Rmult_le_pos; [apply pos_INR | exact He]).
    assert (Hsum : 0 <= rsum (map (fun w => match w with Some x => prob x | None => 0 end) ws)).
    { clear. induction ws as [|[x|] ws IH]; cbn [map]; [cbn; lra| |]; rewrite rsum_cons;
        [pose proof (prob_nonneg x)|]; lra. }
    destruct (hv_sum (sums k i) diff u E V r (Hsu k i) Hu HE Hr _ _ _ _ Hown Hc ltac:(lra)) as (z & Z1 & Z2). apply Rabs_range in Z2.
    destruct (IH (S i) (r_nls (sums k i) (match w with Some x => x | None => PInf end) cum) z (s + p + e) Hws Z1 ltac:(lra) ltac:(lra))
      as (vs & F & S). exists (z :: vs). cbn [r_sum_up map]. split; [constructor; assumption|].
    cbn [steps]. split; [|exact S]. apply Rabs_le. fold p. lra.
  Qed.

  (** Summing up with back-off. *)
  Lemma sum_up_back_ok e e' G : 0 <= e -> 1 <= G -> 2 * G <= V -> e + r <= 1 -> G * (e + r) + 2 * r <= e' ->
    forall g gv, has_value g gv -> gv <= G ->
    forall ws qs back bvs i cum v bprev bv s,
    Forall (fun w => match w with Some x => proper x | None => True end) ws ->
    length ws = length qs -> Forall (fun q => 0 <= q <= 1) qs ->
    has_value cum v -> has_value bprev bv -> Forall2 has_value back bvs -> steps e bv bvs qs ->
    bv + rsum qs + INR (length ws) * e <= 2 ->
    v <= s -> s + rsum (back_off gv ws qs) + INR (length ws) * e' <= 2 ->
    exists vs, Forall2 has_value (r_sum_up_back m sums diff k i g cum bprev ws back) vs /\
      steps e' v vs (back_off gv ws qs).
  Proof.
    intros He HG HV Her He' g gv Hg HgG.
    pose proof (has_value_nonneg _ _ Hg) as Pg.
    assert (Pr : 0 <= r) by nra. assert (Pe' : 0 <= e') by nra.
    assert (NN : forall ws qs, Forall (fun q => 0 <= q <= 1) qs -> 0 <= rsum (back_off gv ws qs)).
    { clear - Pg. induction ws as [|w ws IH]; intros [|q qs] H; cbn [back_off]; try (cbn; lra).
      apply Forall_cons_iff in H. destruct H as [Hq H]. rewrite rsum_cons. pose proof (IH qs H).
      destruct w as [x|]; [pose proof (prob_nonneg x); lra|]. assert (0 <= gv * q) by (apply Rmult_le_pos; lra). lra. }
    assert (NQ : forall qs, Forall (fun q => 0 <= q <= 1) qs -> 0 <= rsum qs).
    { clear. induction qs as [|q qs IH]; intro H; [cbn; lra|]. apply Forall_cons_iff in H. rewrite rsum_cons.
      pose proof (IH (proj2 H)). lra. }
    induction ws as [|w ws IH]; intros [|q qs] back bvs i cum v bprev bv s Hw Hl Hq Hc Hbp Hback Hst Hbb Hvs Hb;
      try discriminate.
    { exists []. split; [constructor | exact I]. }
    destruct bvs as [|bv1 bvs]; cbn [steps] in Hst; [contradiction|]. destruct Hst as [Hst1 Hst].
    inversion Hback as [|b x back' y Hb1 Hback' E1 E2]; subst; clear Hback.
    apply Forall_cons_iff in Hw. destruct Hw as [Hw Hws]. apply Forall_cons_iff in Hq. destruct Hq as [Hq Hqs].
    cbn [length] in *. rewrite S_INR in *. cbn [back_off] in Hb. rewrite rsum_cons in Hb, Hbb.
    injection Hl as Hl. apply Rabs_range in Hst1.
    pose proof (NN ws qs Hqs) as N1. pose proof (NQ qs Hqs) as N2.
    assert (Hn : 0 <= INR (length ws) * e) by (apply Rmult_le_pos; [apply pos_INR | exact He]).
    assert (Hn' : 0 <= INR (length ws) * e') by (apply Rmult_le_pos; [apply pos_INR | exact Pe']).
    set (p := match w with Some x => prob x | None => gv * q end) in *.
    assert (Pp : 0 <= p) by (unfold p; destruct w; [apply prob_nonneg | apply Rmult_le_pos; lra]).
    assert (Hown : exists z, has_value (match w with Some x => x | None => r_add m g (r_safe_diff diff b bprev) end) z /\
      Rabs (z - p) <= e' - r).
    { unfold p. destruct w as [x|].
      - exists (prob x). split; [apply prob_value; exact Hw|]. rewrite Rminus_diag_eq, Rabs_R0 by reflexivity. nra.
      - destruct (hv_diff m diff u E V r Hm Hu HE Hr b bprev bv1 bv Hb1 Hbp ltac:(lra)) as (z & Z1 & Z2).
        pose proof (has_value_nonneg _ _ Z1) as Pz.
        assert (Z3 : Rabs (z - q) <= e + r).
        { destruct Z2 as [[L ->]|[L Z2]]; [|apply Rabs_range in Z2]; apply Rabs_le; lra. }
        apply Rabs_range in Z3.
        assert (Pz2 : z <= 2) by lra.
        destruct (hv_add m diff u E V r Hm Hu HE Hr g (r_safe_diff diff b bprev) gv z Hg Z1 ltac:(lra) ltac:(lra)) as (t & T1 & T2).
        { apply Rle_trans with (G * 2); [|lra]. apply Rmult_le_compat; lra. }
        exists t. split; [exact T1|]. apply Rabs_range in T2.
        assert (A : Rabs (gv * (z - q)) <= G * (e + r)).
        { rewrite Rabs_mult, (Rabs_pos_eq gv) by exact Pg. apply Rmult_le_compat; try lra.
          - apply Rabs_pos.
          - apply Rabs_le. lra. }
        apply Rabs_range in A. apply Rabs_le. lra. }
    destruct Hown as (z & Z1 & Z2). apply Rabs_range in Z2.
    destruct (hv_sum (sums k i) diff u E V r (Hsu k i) Hu HE Hr _ _ _ _ Z1 Hc ltac:(lra)) as (t & T1 & T2). apply Rabs_range in T2.
    destruct (IH qs back' bvs (S i) _ t b bv1 (s + p + e') Hws Hl Hqs T1 Hb1 Hback' Hst ltac:(lra) ltac:(lra) ltac:(lra))
      as (vs & F & S).
    exists (t :: vs). cbn [r_sum_up_back back_off]. split; [constructor; assumption|].
    cbn [steps]. split; [|exact S]. apply Rabs_le. fold p. lra.
  Qed.
End Sums.

(** Sums over part of the words. *)
Lemma steps_range e : forall vs ps v, steps e v vs ps -> forall k, (k <= length vs)%nat ->
  Rabs (nth k (v :: vs) 0 - v - rsum (firstn k ps)) <= INR k * e.
Proof.
  induction vs as [|v1 vs IH]; intros [|p ps] v H k Hk; cbn [steps] in H; try contradiction.
  - cbn [length] in Hk. assert (k = 0)%nat by lia. subst k. cbn. rewrite Rminus_0_r, Rminus_diag_eq, Rabs_R0; lra.
  - destruct H as [H1 H]. destruct k as [|k].
    + cbn. rewrite Rminus_0_r, Rminus_diag_eq, Rabs_R0; lra.
    + cbn [length] in Hk. pose proof (IH ps v1 H k ltac:(lia)) as K. cbn [firstn]. rewrite rsum_cons.
      change (nth (S k) (v :: v1 :: vs) 0) with (nth k (v1 :: vs) 0). rewrite S_INR.
      replace (nth k (v1 :: vs) 0 - v - (p + rsum (firstn k ps)))
        with ((nth k (v1 :: vs) 0 - v1 - rsum (firstn k ps)) + (v1 - v - p)) by ring.
      eapply Rle_trans; [apply Rabs_triang|]. lra.
Qed.

Lemma steps_skip e : forall vs ps v, steps e v vs ps -> forall k, (k <= length vs)%nat ->
  steps e (nth k (v :: vs) 0) (skipn k vs) (skipn k ps).
Proof.
  induction vs as [|v1 vs IH]; intros [|p ps] v H k Hk; cbn [steps] in H; try contradiction.
  - cbn [length] in Hk. assert (k = 0)%nat by lia. subst k. exact I.
  - destruct k as [|k]; [exact H|]. cbn [length] in Hk. cbn [skipn].
    change (nth (S k) (v :: v1 :: vs) 0) with (nth k (v1 :: vs) 0). apply IH; [apply H | lia].
Qed.

Lemma word_error_pos r G k : 0 <= r -> 1 <= G -> 0 <= word_error r G k.
Proof.
  intros Hr HG. induction k as [|[|k] IH]; [cbn; lra | cbn; lra|].
  change (word_error r G (S (S k))) with (G * (word_error r G (S k) + r) + 2 * r). nra.
Qed.
Lemma word_error_ge r G k : 0 <= r -> 1 <= G -> r <= word_error r G (S k).
Proof.
  intros Hr HG. pose proof (word_error_pos r G (S k) Hr HG). destruct k as [|k]; [cbn; lra|].
  change (word_error r G (S (S k))) with (G * (word_error r G (S k) + r) + 2 * r).
  pose proof (word_error_pos r G (S k) Hr HG). nra.
Qed.
Lemma word_error_mono r G k : 0 <= r -> 1 <= G -> word_error r G k <= word_error r G (S k).
Proof.
  intros Hr HG. pose proof (word_error_pos r G k Hr HG). destruct k as [|k]; [cbn; lra|].
  change (word_error r G (S (S k))) with (G * (word_error r G (S k) + r) + 2 * r). nra.
Qed.

Lemma back_off_length g : forall ws qs, length ws = length qs -> length (back_off g ws qs) = length ws.
Proof. induction ws as [|w ws IH]; intros [|q qs] H; cbn in *; try discriminate; auto. Qed.

Lemma true_probs_shape n G : forall ls, ls <> [] -> good_path n G ls ->
  length (true_probs ls) = S n /\ Forall (fun q => 0 <= q <= 1) (true_probs ls) /\ rsum (true_probs ls) <= 1.
Proof.
  assert (B : forall l : list R, Forall (fun q => 0 <= q) l -> rsum l <= 1 -> Forall (fun q => 0 <= q <= 1) l).
  { assert (N : forall l, Forall (fun q => 0 <= q) l -> 0 <= rsum l).
    { induction 1; [cbn; lra|]. rewrite rsum_cons. lra. }
    induction l as [|q l IH]; intros H S; [constructor|]. apply Forall_cons_iff in H. destruct H as [H1 H2].
    rewrite rsum_cons in S. pose proof (N l H2). constructor; [lra|]. apply IH; [exact H2 | lra]. }
  induction ls as [|l rest IH]; intros Ne Hp; [congruence|]. destruct Hp as (F & W & Lw & Pb & GG & S & Hr).
  assert (A : length (true_probs (l :: rest)) = Datatypes.S n /\ Forall (fun q => 0 <= q) (true_probs (l :: rest))).
  { destruct rest as [|l' rest].
    - cbn [true_probs length]. rewrite map_length. split; [lia|]. constructor; [apply prob_nonneg|].
      apply Forall_map. apply Forall_forall. intros [x|] _; [apply prob_nonneg | lra].
    - destruct (IH ltac:(discriminate) Hr) as (L1 & F1 & _).
      set (tp := true_probs (l' :: rest)) in *.
      change (true_probs (l :: l' :: rest)) with
        (match tp with
         | [] => prob (lv_final l) :: map (fun w => match w with Some x => prob x | None => 0 end) (lv_words l)
         | q0 :: qs => (match lv_final l with PInf => prob (lv_back l) * q0 | f => prob f end)
            :: back_off (prob (lv_back l)) (lv_words l) qs end).
      destruct tp as [|q0 qs]; [discriminate|]. cbn [length] in L1. injection L1 as L1.
      apply Forall_cons_iff in F1. destruct F1 as [Q0 Qs]. cbn [length].
      rewrite back_off_length by congruence. split; [congruence|]. constructor.
      + pose proof (prob_nonneg (lv_back l)). destruct (lv_final l); try (apply Rmult_le_pos; lra); apply prob_nonneg.
      + clear - Qs. revert qs Qs. generalize (prob_nonneg (lv_back l)). generalize (prob (lv_back l)) as g. intros g Pg.
        induction (lv_words l) as [|w ws IH]; intros [|q qs] Qs; cbn [back_off]; try constructor.
        * apply Forall_cons_iff in Qs. destruct w; [apply prob_nonneg | apply Rmult_le_pos; lra].
        * apply Forall_cons_iff in Qs. apply IH, Qs. }
  destruct A as [A1 A2]. split; [exact A1|]. split; [apply B; assumption | exact S].
Qed.

Lemma fill_table m sums diff u E G n : log_accurate u E (2 * G) m diff ->
  (forall k i, log_accurate u E (2 * G) (sums k i) diff) -> 0 <= u -> 0 <= E -> 1 <= G ->
  forall ls, ls <> [] -> good_path n G ls -> INR (S n) * word_error (rounding u E G) G (length ls) <= 1 ->
  table (word_error (rounding u E G) G (length ls)) (r_fill m sums diff ls) (true_probs ls).
Proof.
  intros Hm Hs Hu HE HG. set (r := rounding u E G).
  assert (Hr : 2 * G * u + E <= r) by (unfold r, rounding; lra).
  assert (Pr : 0 <= r) by (assert (0 <= G * u) by (apply Rmult_le_pos; lra); lra).
  induction ls as [|l rest IH]; intros Ne Hp Hn; [congruence|].
  pose proof (true_probs_shape n G _ Ne Hp) as (L0 & F0 & S0).
  destruct Hp as (F & W & Lw & Pb & GG & _ & Hrest).
  pose proof (prob_value _ F) as VF. pose proof (prob_value _ Pb) as VB.
  destruct rest as [|l' rest].
  - cbn [length] in *. change (word_error r G 1) with r in *. cbn [true_probs r_fill] in *.
    rewrite S_INR in Hn. rewrite rsum_cons in S0.
    destruct (sum_up_ok sums diff u E (2 * G) r Hs Hu HE Hr 0 r Pr ltac:(lra) ltac:(lra) (lv_words l) 1%nat (lv_final l)
      (prob (lv_final l)) (prob (lv_final l)) W VF ltac:(lra)) as (vs & A & B).
    { rewrite Lw. lra. }
    exists (prob (lv_final l) :: vs). split; [constructor; assumption|]. cbn [steps]. split; [|exact B].
    rewrite Rminus_0_r, Rminus_diag_eq, Rabs_R0 by reflexivity. exact Pr.
  - change (length (l :: l' :: rest)) with (S (length (l' :: rest))) in *.
    set (ls' := l' :: rest) in *. set (e := word_error r G (length ls')) in *.
    set (e' := word_error r G (S (length ls'))) in *.
    assert (Ee : e' = G * (e + r) + 2 * r) by reflexivity.
    assert (Pe : 0 <= e) by (apply word_error_pos; assumption).
    assert (Le : e <= e') by (apply word_error_mono; assumption).
    assert (Pn : 0 <= INR n) by apply pos_INR. rewrite S_INR in Hn, IH.
    assert (Hn1 : (INR n + 1) * e <= 1) by nra.
    assert (He1 : e' <= 1) by nra.
    assert (Her : e + r <= 1) by nra.
    destruct (IH ltac:(discriminate) Hrest Hn1) as (bvs & B1 & B2).
    pose proof (true_probs_shape n G ls' ltac:(discriminate) Hrest) as (L1 & F1 & S1).
    change (r_fill m sums diff (l :: ls')) with
      (match r_fill m sums diff ls' with
       | [] => lv_final l :: r_sum_up sums (length ls') 1 (lv_final l) (lv_words l)
       | b0 :: back =>
            let c0 := if is_zero (lv_final l) then r_add m b0 (lv_back l) else lv_final l in
            c0 :: r_sum_up_back m sums diff (length ls') 1 (lv_back l) c0 b0 (lv_words l) back
       end).
    change (true_probs (l :: ls')) with
        (match true_probs ls' with
         | [] => prob (lv_final l) :: map (fun w => match w with Some x => prob x | None => 0 end) (lv_words l)
         | q0 :: qs => (match lv_final l with PInf => prob (lv_back l) * q0 | f => prob f end)
            :: back_off (prob (lv_back l)) (lv_words l) qs end) in *.
    destruct (true_probs ls') as [|q0 qs]; [discriminate|]. cbn [length] in L1. injection L1 as L1.
    clear IH. destruct bvs as [|bv0 bvs]; cbn [steps] in B2; [contradiction|]. destruct B2 as [B2 B3].
    destruct (r_fill m sums diff ls') as [|b0 back]; [inversion B1|].
    assert (HB : has_value b0 bv0 /\ Forall2 has_value back bvs) by (inversion B1; auto). clear B1.
    destruct HB as [Hb0 Hback].
    apply Forall_cons_iff in F1. destruct F1 as [Q0 Qs]. rewrite rsum_cons in S1. rewrite Rminus_0_r in B2.
    apply Rabs_range in B2.
    assert (NQ : 0 <= rsum qs).
    { clear - Qs. induction qs as [|q qs IH]; [cbn; lra|]. apply Forall_cons_iff in Qs. rewrite rsum_cons.
      pose proof (IH (proj2 Qs)). lra. }
    apply Forall_cons_iff in F0. rewrite rsum_cons in S0. cbv zeta.
    set (c0 := if is_zero (lv_final l) then r_add m b0 (lv_back l) else lv_final l) in *.
    set (p0 := match lv_final l with PInf => prob (lv_back l) * q0 | f => prob f end) in *.
    pose proof (prob_nonneg (lv_back l)) as Pg.
    assert (C0 : exists v0, has_value c0 v0 /\ Rabs (v0 - p0) <= e').
    { unfold c0, p0. destruct (lv_final l) as [x| | |] eqn:EF; cbn [is_zero]; try contradiction.
      - exists (exp (- x)). split; [reflexivity|]. cbn [prob].
        rewrite Rminus_diag_eq, Rabs_R0 by reflexivity. lra.
      - destruct (hv_add m diff u E (2 * G) r Hm Hu HE Hr b0 (lv_back l) bv0 (prob (lv_back l)) Hb0 VB) as (t & T1 & T2).
        + lra.
        + lra.
        + pose proof (has_value_nonneg _ _ Hb0). replace (2 * G) with (2 * G) by ring.
          apply Rmult_le_compat; lra.
        + exists t. split; [exact T1|]. apply Rabs_range in T2.
          assert (A : Rabs (prob (lv_back l) * (bv0 - q0)) <= G * e).
          { rewrite Rabs_mult, (Rabs_pos_eq (prob (lv_back l))) by exact Pg.
            apply Rmult_le_compat; try lra; [apply Rabs_pos | apply Rabs_le; lra]. }
          apply Rabs_range in A. apply Rabs_le. assert (0 <= G * r) by nra. lra. }
    destruct C0 as (v0 & V0 & D0).
    destruct (sum_up_back_ok m sums diff u E (2 * G) r Hm Hs Hu HE Hr (length ls') e e' G Pe HG ltac:(lra) Her ltac:(lra)
      (lv_back l) (prob (lv_back l)) VB GG (lv_words l) qs back bvs 1%nat c0 v0 b0 bv0 (p0 + e') W ltac:(congruence) Qs
      V0 Hb0 Hback B3) as (vs & A & B).
    + rewrite Lw. lra.
    + apply Rabs_range in D0. lra.
    + rewrite Lw. lra.
    + exists (v0 :: vs). split; [constructor; assumption|]. cbn [steps]. split; [|exact B].
      rewrite Rminus_0_r. exact D0.
Qed.

Lemma forall2_nth {A B : Type} (P : A -> B -> Prop) l k da db : Forall2 P l k -> forall i, (i < length l)%nat ->
  P (nth i l da) (nth i k db).
Proof.
  induction 1 as [|a b l k H1 H IH]; intros i Hi; cbn [length] in Hi; [lia|].
  destruct i as [|i]; [exact H1|]. apply IH. lia.
Qed.

Lemma range_ok m diff u E V r e cs ps b k : log_accurate u E V m diff -> 0 <= u -> 0 <= E -> V * u + E <= r ->
  0 <= e -> table e cs ps -> Forall (fun q => 0 <= q) ps -> rsum ps + INR (length ps) * e <= V ->
  (1 <= b)%nat -> (b <= k)%nat -> (k < length ps)%nat ->
  exists z, has_value (r_range diff cs b k) z /\
    Rabs (z - rsum (firstn (S k - b) (skipn b ps))) <= INR (S k - b) * e + r.
Proof.
  intros Hm Hu HE Hr Pe (vs & F & S) Pq Hs Hb Hbk Hk.
  assert (Lc : length cs = length vs) by (clear - F; induction F; cbn; auto).
  pose proof (steps_length _ _ _ _ S) as Ls.
  pose proof (forall2_nth has_value cs vs PInf 0 F k ltac:(lia)) as H1.
  pose proof (forall2_nth has_value cs vs PInf 0 F (b - 1) ltac:(lia)) as H2.
  assert (NF : forall l : list R, Forall (fun q => 0 <= q) l -> 0 <= rsum l).
  { induction 1; [cbn; lra|]. rewrite rsum_cons. lra. }
  assert (FS : forall i (l : list R), Forall (fun q => 0 <= q) l -> rsum (firstn i l) <= rsum l).
  { clear - NF. induction i as [|i IH]; intros l H.
    - cbn [firstn]. apply NF in H. cbn in *. lra.
    - destruct H as [|q l Hq H]; [cbn; lra|]. cbn [firstn]. rewrite !rsum_cons. pose proof (IH l H). lra. }
  assert (FN : forall i (l : list R), Forall (fun q => 0 <= q) l -> Forall (fun q => 0 <= q) (firstn i l)).
  { clear. intros i l H. rewrite <- (firstn_skipn i l) in H. apply Forall_app in H. apply H. }
  assert (SN : forall i (l : list R), Forall (fun q => 0 <= q) l -> Forall (fun q => 0 <= q) (skipn i l)).
  { clear. intros i l H. rewrite <- (firstn_skipn i l) in H. apply Forall_app in H. apply H. }
  assert (Vk : nth k vs 0 <= V).
  { pose proof (steps_range e vs ps 0 S (Datatypes.S k) ltac:(lia)) as K.
    change (nth (Datatypes.S k) (0 :: vs) 0) with (nth k vs 0) in K. apply Rabs_range in K.
    pose proof (FS (Datatypes.S k) ps Pq).
    assert (INR (Datatypes.S k) * e <= INR (length ps) * e) by (apply Rmult_le_compat_r; [exact Pe | apply le_INR; lia]).
    lra. }
  destruct (hv_diff m diff u E V r Hm Hu HE Hr _ _ _ _ H1 H2 Vk) as (z & Z1 & Z2).
  exists z. split; [exact Z1|].
  pose proof (steps_skip e vs ps 0 S b ltac:(lia)) as K.
  pose proof (steps_range e _ _ _ K (Datatypes.S k - b) ltac:(rewrite skipn_length; lia)) as K2.
  assert (Eb : nth b (0 :: vs) 0 = nth (b - 1) vs 0).
  { destruct b as [|b]; [lia|]. cbn [nth]. replace (Datatypes.S b - 1)%nat with b by lia. reflexivity. }
  rewrite Eb in K2.
  assert (Ek : nth (Datatypes.S k - b) (nth (b - 1) vs 0 :: skipn b vs) 0 = nth k vs 0).
  { destruct (Datatypes.S k - b)%nat as [|j] eqn:EJ; [lia|]. cbn [nth].
    rewrite <- (firstn_skipn b vs) at 2. rewrite app_nth2; rewrite firstn_length_le by lia; [f_equal; lia | lia]. }
  rewrite Ek in K2. apply Rabs_range in K2.
  pose proof (NF _ (FN (Datatypes.S k - b)%nat _ (SN b ps Pq))) as N0.
  assert (Pn : 0 <= INR (Datatypes.S k - b) * e) by (apply Rmult_le_pos; [apply pos_INR | exact Pe]).
  pose proof (has_value_nonneg _ _ H1). assert (Pr : 0 <= r) by nra.
  destruct Z2 as [[L ->]|[L Z2]]; [|apply Rabs_range in Z2]; apply Rabs_le; lra.
Qed.
