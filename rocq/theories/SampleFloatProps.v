(** C73: random sampling in double arithmetic. *)
From Coq Require Import ZArith Reals Lia Lra String.
From Flocq Require Import Core BinarySingleNaN.
From Verif Require Import Base Field FieldR TextModel BigramFloatModel BigramFloatNum ClientModel ClientSpec
  ClientProofs SampleFloatModel SampleFloatProofs SampleFloatSpec.
Close Scope string_scope.
Open Scope list_scope.
Local Notation length := List.length.
Local Open Scope R_scope.

(** A list as long as an [int] can count (client_helper.cc:61). *)
Definition int_long (l : list (double * string)) : Prop := (Z.of_nat (length l) < 2 ^ 31)%Z.

Lemma long53 l : int_long l -> (Z.of_nat (length l) <= 2 ^ 53)%Z.
Proof. unfold int_long. lia. Qed.

Lemma numbers_bounded l : probabilities l -> Forall (fun x => 0 <= x <= 1) (numbers l).
Proof. intro P. unfold numbers. apply Forall_map. eapply Forall_impl; [|exact P]. intros e [_ B]. exact B. Qed.

Lemma rounded_mono l i j : probabilities l -> (i <= j)%nat -> rounded_sum l i <= rounded_sum l j.
Proof. intros P H. exact (sums_mono (numbers l) i j (numbers_bounded l P) H). Qed.

(** Over the draws in (0, total] every entry owns the interval between two neighbouring running
    totals... *)
Theorem C73_interval : forall l i e u,
  probabilities l -> int_long l -> nth_error l i = Some e ->
  is_number u -> 0 < real u <= rounded_sum l (length l) ->
  (d_random_position l u = i <-> rounded_sum l i < real u <= rounded_sum l (S i)).
Proof.
  intros l i e u P L E Fu Hu.
  destruct (SampleFloatProofs.position_spec l u Fu P (long53 l L)) as (j & Ej & Lj & A & B).
  change (sums (vals l)) with (rounded_sum l) in *.
  change (val u) with (real u) in *.
  assert (Li : (i < length l)%nat) by (apply nth_error_Some; congruence).
  assert (Uj : real u <= rounded_sum l j) by (destruct B as [B|B]; [rewrite B; lra | exact B]).
  assert (Hj : j <> O).
  { intros ->. change (rounded_sum l 0) with 0 in Uj. lra. }
  rewrite Ej. split.
  - intros <-. replace (S (Nat.pred j)) with j by lia. split; [apply A; lia | exact Uj].
  - intros [C D]. destruct (lt_eq_lt_dec (Nat.pred j) i) as [[H|H]|H]; auto; exfalso.
    + pose proof (rounded_mono l j i P ltac:(lia)). lra.
    + pose proof (A (S i) ltac:(lia)). lra.
Qed.

(** ... and the length of that interval is its probability, up to the rounding of one addition. *)
Theorem C73_share : forall l i e,
  probabilities l -> nth_error l i = Some e ->
  Rabs (rounded_sum l (S i) - rounded_sum l i - real (fst e)) <= / 2 ^ 53 * rounded_sum l (S i).
Proof.
  intros l i e P E.
  pose proof (sums_S (numbers l) i _ (vals_nth _ _ _ E)) as S1.
  change (sums (numbers l)) with (rounded_sum l) in S1.
  pose proof (proj1 (Forall_forall _ l) P _ (nth_error_In _ _ E)) as [_ B].
  pose proof (rounded_mono l 0 i P ltac:(lia)) as M. change (rounded_sum l 0) with 0 in M.
  rewrite S1. change (val (fst e)) with (real (fst e)).
  replace (rnd (rounded_sum l i + real (fst e)) - rounded_sum l i - real (fst e))
    with (rnd (rounded_sum l i + real (fst e)) - (rounded_sum l i + real (fst e))) by ring.
  apply add_error; [exact (sums_format (numbers l) i) | exact (val_format (fst e)) | exact M | apply B].
Qed.

(** The running total is the exact one up to one relative rounding error per entry. *)
Theorem C73_total : forall l i,
  probabilities l -> (i <= length l)%nat ->
  Rabs (rounded_sum l i - exact_sum l i) <= INR i * / 2 ^ 53 * rounded_sum l i.
Proof.
  intros l i P. induction i as [|i IH]; intro Hi.
  - unfold rounded_sum, exact_sum. cbn [firstn fold_left INR]. rewrite Rminus_0_r, Rabs_R0. lra.
  - destruct (nth_error l i) as [e|] eqn:E; [|apply nth_error_None in E; lia].
    specialize (IH ltac:(lia)). pose proof (C73_share l i e P E) as S1.
    pose proof (rounded_mono l i (S i) P ltac:(lia)) as M.
    pose proof (exact_S (numbers l) i _ (vals_nth _ _ _ E)) as X.
    change (exact (numbers l)) with (exact_sum l) in X. change (val (fst e)) with (real (fst e)) in X.
    rewrite X, S_INR.
    replace (rounded_sum l (S i) - (exact_sum l i + real (fst e)))
      with ((rounded_sum l (S i) - rounded_sum l i - real (fst e)) + (rounded_sum l i - exact_sum l i)) by ring.
    eapply Rle_trans; [apply Rabs_triang|].
    assert (N : 0 <= INR i * / 2 ^ 53).
    { apply Rmult_le_pos; [apply pos_INR|]. left. apply Rinv_0_lt_compat. apply pow_lt. lra. }
    pose proof (Rmult_le_compat_l _ _ _ N M). nra.
Qed.

(** The corner draws: 0 selects the first entry, anything beyond the total the last. *)
Theorem C73_corners : forall l u, probabilities l -> int_long l -> is_number u ->
  (real u <= 0 -> d_random_position l u = O) /\
  (rounded_sum l (length l) < real u -> d_random_position l u = Nat.pred (length l)) /\
  (l <> [] -> (d_random_position l u < length l)%nat).
Proof.
  intros l u P L Fu.
  destruct (SampleFloatProofs.position_spec l u Fu P (long53 l L)) as (j & -> & Lj & A & B).
  change (sums (vals l)) with (rounded_sum l) in *. change (val u) with (real u) in *.
  split; [|split].
  - intro H. destruct j as [|j]; [reflexivity|]. pose proof (A O ltac:(lia)) as C.
    change (rounded_sum l 0) with 0 in C. lra.
  - intro H. destruct B as [->|B]; [reflexivity|]. pose proof (rounded_mono l j (length l) P Lj). lra.
  - intro H. destruct l; [congruence|]. cbn [List.length] in *. lia.
Qed.

(** The same entries with exact probabilities, for the exact sampling of C44. *)
Definition exactly (l : list (double * string)) : list (car R_field * string) :=
  map (fun e => (real (fst e), snd e)) l.

Lemma cumulative_exact l i : @cumulative R_field (exactly l) i = exact_sum l i.
Proof.
  revert i. assert (K : forall l i a, fold_left Rplus (firstn i (numbers l)) a =
      a + @cumulative R_field (exactly l) i).
  { clear. assert (Z0 : forall l, @cumulative R_field l 0 = 0) by reflexivity.
    induction l as [|e l IH]; intros [|i] a.
    - rewrite Z0. cbn. ring.
    - change (@cumulative R_field (exactly []) (S i)) with 0. cbn. ring.
    - rewrite Z0. cbn. ring.
    - cbn [numbers map firstn fold_left]. fold (numbers l). rewrite IH.
      change (@cumulative R_field (exactly (e :: l)) (S i))
        with (real (fst e) + @cumulative R_field (exactly l) i). ring. }
  intro i. unfold exact_sum. rewrite K. exact (eq_sym (Rplus_0_l _)).
Qed.

(** Unless the draw falls within the rounding error of a boundary between two entries, rounding
    does not change what is sampled. *)
Theorem C73_agrees : forall l u, probabilities l -> int_long l -> is_number u ->
  (forall i, (i <= length l)%nat ->
     INR (length l) * / 2 ^ 53 * rounded_sum l (length l) < Rabs (real u - exact_sum l i)) ->
  d_random_position l u = @get_random_position R_field (exactly l) (real u).
Proof.
  intros l u P L Fu G.
  destruct (SampleFloatProofs.position_spec l u Fu P (long53 l L)) as (j & -> & Lj & A & B).
  destruct (@ClientProofs.position_spec R_field (exactly l) (real u)) as (k & -> & Lk & C & D).
  change (sums (vals l)) with (rounded_sum l) in *. change (val u) with (real u) in *.
  unfold exactly in Lk, D. rewrite map_length in Lk, D. fold (exactly l) in D.
  assert (S : forall i, (i <= length l)%nat -> (rounded_sum l i < real u <-> exact_sum l i < real u)).
  { intros i Hi. pose proof (C73_total l i P Hi) as T. specialize (G i Hi).
    pose proof (rounded_mono l i (length l) P Hi) as M.
    pose proof (rounded_mono l 0 i P ltac:(lia)) as M0. change (rounded_sum l 0) with 0 in M0.
    assert (Q : INR i * / 2 ^ 53 * rounded_sum l i <= INR (length l) * / 2 ^ 53 * rounded_sum l (length l)).
    { apply Rmult_le_compat; auto.
      - apply Rmult_le_pos; [apply pos_INR|]. left. apply Rinv_0_lt_compat. apply pow_lt. lra.
      - apply Rmult_le_compat_r; [left; apply Rinv_0_lt_compat; apply pow_lt; lra|]. apply le_INR. lia. }
    apply Rabs_le_inv in T. split; intro H; unfold Rabs in G; destruct (Rcase_abs _) in G; lra. }
  f_equal. destruct (lt_eq_lt_dec j k) as [[H|H]|H]; auto; exfalso.
  - pose proof (C j H) as X. apply flt_R in X. rewrite cumulative_exact in X.
    destruct B as [B|B]; [lia|]. apply (S j Lj) in X. lra.
  - pose proof (A k H) as X. apply (S k Lk) in X. destruct D as [D|D]; [lia|].
    apply fle_R in D. rewrite cumulative_exact in D. lra.
Qed.

(** A symbol of probability 0 is sampled only by the draw 0 or, as the last of the list, by a
    draw beyond the running total. *)
Theorem C73_positive : forall l u e, probabilities l -> int_long l -> is_number u ->
  nth_error l (d_random_position l u) = Some e ->
  0 < real (fst e) \/ real u <= 0 \/
  (rounded_sum l (length l) < real u /\ S (d_random_position l u) = length l).
Proof.
  intros l u e P L Fu E.
  destruct (Rle_or_lt (real u) 0) as [H0|H0]; [right; left; exact H0|].
  destruct (Rle_or_lt (real u) (rounded_sum l (length l))) as [H1|H1].
  - left. destruct (proj1 (C73_interval l _ e u P L E Fu (conj H0 H1)) eq_refl) as [A B].
    pose proof (proj1 (Forall_forall _ l) P _ (nth_error_In _ _ E)) as [_ [Q _]].
    destruct Q as [Q|Q]; [exact Q|]. exfalso.
    pose proof (sums_S (numbers l) _ _ (vals_nth _ _ _ E)) as S1.
    change (sums (numbers l)) with (rounded_sum l) in S1. change (val (fst e)) with (real (fst e)) in S1.
    rewrite <- Q, Rplus_0_r in S1.
    pose proof (rnd_format _ (sums_format (numbers l) (d_random_position l u))) as S2.
    change (sums (numbers l)) with (rounded_sum l) in S2. lra.
  - right; right. split; [exact H1|].
    destruct (C73_corners l u P L Fu) as [_ [C _]]. rewrite (C H1).
    destruct l; [destruct (d_random_position [] u); discriminate|]. reflexivity.
Qed.

(** The last case happens, also for probabilities that sum to exactly 1 and a draw below 1: the
    parts too small to change the running total are lost, and the draw goes to the least
    probable symbol, here one of probability 0. *)
Definition d_pow (m e : Z) : double := binary_normalize 53 1024 prec53 emax1024 mode_NE m e false.
Definition lossy : list (double * string) :=
  [(d_pow 1 (-1), "a"); (d_pow 1 (-2), "b"); (d_pow (2 ^ 50 - 1) (-52), "c");
   (d_pow 1 (-54), "d"); (d_pow 1 (-54), "e"); (d_pow 1 (-54), "f"); (d_pow 1 (-54), "g");
   (d_pow 0 0, "never")]%string.
Definition late : double := d_pow (2 ^ 53 - 1) (-53).

Lemma real_SF x s : B2SF x = s -> real x = SF2R radix2 s.
Proof. intros <-. unfold real. symmetry. apply SF2R_B2SF. Qed.

Lemma real_pow m e : (0 <= m < 2 ^ 53)%Z -> (-60 <= e <= 0)%Z ->
  is_number (d_pow m e) /\ real (d_pow m e) = IZR m * bpow radix2 e.
Proof.
  intros Hm He. unfold d_pow, is_number, real.
  pose proof (binary_normalize_correct 53 1024 prec53 emax1024 mode_NE m e false) as H. cbv zeta in H.
  change (round radix2 (SpecFloat.fexp 53 1024) (round_mode mode_NE) (F2R (Float radix2 m e)))
    with (rnd (IZR m * bpow radix2 e)) in H.
  rewrite (rnd_format (IZR m * bpow radix2 e)) in H.
  2:{ apply generic_format_FLT. exists (Float radix2 m e); simpl; [reflexivity| |lia]. lia. }
  rewrite Rlt_bool_true in H; [tauto|].
  rewrite Rabs_pos_eq.
  - apply Rle_lt_trans with (bpow radix2 53 * bpow radix2 0).
    + apply Rmult_le_compat; [apply IZR_le; lia | apply bpow_ge_0 | | apply bpow_le; lia].
      change (bpow radix2 53) with (IZR (2 ^ 53)). apply IZR_le. lia.
    + rewrite <- bpow_plus. apply bpow_lt. lia.
  - apply Rmult_le_pos; [apply IZR_le; lia | apply bpow_ge_0].
Qed.

Theorem C73_zero_probability_drawn_refuted :
  exists l u e, probabilities l /\ int_long l /\ is_number u /\ 0 < real u < 1 /\
    StronglySorted (fun a b => real (fst b) <= real (fst a)) l /\
    exact_sum l (length l) = 1 /\
    nth_error l (d_random_position l u) = Some e /\ real (fst e) = 0.
Proof.
  exists lossy, late, (d_pow 0 0, "never"%string).
  assert (E1 := real_pow 1 (-1) ltac:(lia) ltac:(lia)).
  assert (E2 := real_pow 1 (-2) ltac:(lia) ltac:(lia)).
  assert (E3 := real_pow (2 ^ 50 - 1) (-52) ltac:(lia) ltac:(lia)).
  assert (E4 := real_pow 1 (-54) ltac:(lia) ltac:(lia)).
  assert (E5 := real_pow 0 0 ltac:(lia) ltac:(lia)).
  assert (E6 := real_pow (2 ^ 53 - 1) (-53) ltac:(lia) ltac:(lia)).
  destruct E1 as [N1 E1], E2 as [N2 E2], E3 as [N3 E3], E4 as [N4 E4], E5 as [N5 E5], E6 as [N6 E6].
  change (bpow radix2 (-1)) with (/ 2) in E1.
  change (bpow radix2 (-2)) with (/ 4) in E2.
  change (bpow radix2 (-52)) with (/ 4503599627370496) in E3.
  change (bpow radix2 (-54)) with (/ 18014398509481984) in E4.
  change (bpow radix2 0) with 1 in E5.
  change (bpow radix2 (-53)) with (/ 9007199254740992) in E6.
  change (2 ^ 50 - 1)%Z with 1125899906842623%Z in E3.
  change (2 ^ 53 - 1)%Z with 9007199254740991%Z in E6.
  assert (V : numbers lossy = [/ 2; / 4; 1125899906842623 * / 4503599627370496;
     / 18014398509481984; / 18014398509481984; / 18014398509481984; / 18014398509481984; 0]).
  { unfold numbers, lossy. cbn [map fst]. change (2 ^ 50 - 1)%Z with 1125899906842623%Z.
    rewrite E1, E2, E3, E4, E5. rewrite !Rmult_1_l, Rmult_0_l. reflexivity. }
  assert (P : probabilities lossy).
  { unfold probabilities, lossy. change (2 ^ 50 - 1)%Z with 1125899906842623%Z.
    repeat apply Forall_cons; cbn [fst]; try apply Forall_nil; (split; [assumption|]);
      rewrite ?E1, ?E2, ?E3, ?E4, ?E5; lra. }
  split; [exact P|]. split; [unfold int_long, lossy; cbn [List.length]; lia|]. split; [exact N6|].
  split; [unfold late; change (2 ^ 53 - 1)%Z with 9007199254740991%Z; rewrite E6; lra|].
  split.
  { unfold lossy. change (2 ^ 50 - 1)%Z with 1125899906842623%Z.
    repeat first [apply SSorted_nil | apply SSorted_cons];
      repeat apply Forall_cons; try apply Forall_nil; cbn [fst];
      rewrite ?E1, ?E2, ?E3, ?E4, ?E5; lra. }
  split.
  { unfold exact_sum. rewrite V. cbn [List.length lossy firstn fold_left]. lra. }
  split; [|cbn [fst]; rewrite E5; ring].
  assert (K : d_random_position lossy late = 7%nat) by (vm_compute; reflexivity).
  rewrite K. reflexivity.
Qed.

(** The hypotheses of C73 are met by an ordinary answer: thirds, and a draw in the middle. *)
Definition third : double := d_pow 6004799503160661 (-54).
Definition plain : list (double * string) :=
  [(d_pow 1 (-1), "a"); (third, "b"); (d_pow 1 (-3), "")]%string.
Example C73_hypotheses_met :
  probabilities plain /\ int_long plain /\ is_number (d_pow 3 (-2)) /\
  0 < real (d_pow 3 (-2)) <= rounded_sum plain (length plain) /\
  map (d_random_position plain) [d_pow 1 (-2); d_pow 3 (-2); d_pow 15 (-4); d_pow 0 0] = [0; 1; 2; 0]%nat.
Proof.
  assert (E1 := real_pow 1 (-1) ltac:(lia) ltac:(lia)).
  assert (E2 := real_pow 6004799503160661 (-54) ltac:(lia) ltac:(lia)).
  assert (E3 := real_pow 1 (-3) ltac:(lia) ltac:(lia)).
  assert (E4 := real_pow 3 (-2) ltac:(lia) ltac:(lia)).
  destruct E1 as [N1 E1], E2 as [N2 E2], E3 as [N3 E3], E4 as [N4 E4].
  change (bpow radix2 (-1)) with (/ 2) in E1.
  change (bpow radix2 (-54)) with (/ 18014398509481984) in E2.
  change (bpow radix2 (-3)) with (/ 8) in E3.
  change (bpow radix2 (-2)) with (/ 4) in E4.
  assert (P : probabilities plain).
  { unfold probabilities, plain, third.
    repeat apply Forall_cons; cbn [fst]; try apply Forall_nil; (split; [assumption|]);
      rewrite ?E1, ?E2, ?E3; lra. }
  split; [exact P|]. split; [unfold int_long, plain; cbn [List.length]; lia|]. split; [exact N4|].
  split.
  - rewrite E4. split; [lra|].
    pose proof (C73_total plain 3 P ltac:(cbn [List.length plain]; lia)) as T.
    pose proof (rounded_mono plain 0 3 P ltac:(lia)) as M. change (rounded_sum plain 0) with 0 in M.
    assert (X : exact_sum plain 3 = 0 + 1 * / 2 + 6004799503160661 * / 18014398509481984 + 1 * / 8).
    { unfold exact_sum, numbers, plain, third. cbn [map fst firstn fold_left].
      rewrite E1, E2, E3. reflexivity. }
    rewrite X in T. apply Rabs_le_inv in T. change (List.length plain) with 3%nat.
    assert (I3 : INR 3 * / 2 ^ 53 <= / 1000).
    { cbn [INR]. rewrite (pow_IZR 2 53). change (2 ^ Z.of_nat 53)%Z with 9007199254740992%Z. lra. }
    nra.
  - vm_compute. reflexivity.
Qed.
