(** Lemmas on the sampling in doubles. *)
From Coq Require Import ZArith Reals Lia Lra String.
From Flocq Require Import Core BinarySingleNaN Relative Plus_error.
From Verif Require Import Base Field FieldR TextModel BigramFloatModel BigramFloatNum SampleFloatModel.
Close Scope string_scope.
Open Scope list_scope.
Local Notation length := List.length.
Local Open Scope R_scope.

(** Partial sums of a list of numbers, rounded to double after every addition. *)
Definition sums (l : list R) (i : nat) : R := fold_left (fun t p => rnd (t + p)) (firstn i l) 0.
(** The same without rounding. *)
Definition exact (l : list R) (i : nat) : R := fold_left Rplus (firstn i l) 0.

Definition vals (l : list (double * string)) : list R := map (fun e => val (fst e)) l.

(** Probabilities: finite doubles between 0 and 1. *)
Definition prob (x : double) : Prop := finite x = true /\ 0 <= val x <= 1.
Definition probs (l : list (double * string)) : Prop := Forall (fun e => prob (fst e)) l.

Lemma nth_error_firstn_S {A} (l : list A) i x : nth_error l i = Some x ->
  firstn (S i) l = firstn i l ++ [x].
Proof.
  revert i. induction l as [|a l IH]; intros [|i] E; try discriminate.
  - injection E as ->. reflexivity.
  - cbn [firstn app]. rewrite <- (IH i E). reflexivity.
Qed.

Lemma skipn_S_tl {A} k (l : list A) : skipn (S k) l = tl (skipn k l).
Proof. revert k. induction l as [|a l IH]; intros [|k]; try reflexivity. exact (IH k). Qed.

Lemma sums_S l i p : nth_error l i = Some p -> sums l (S i) = rnd (sums l i + p).
Proof. intro E. unfold sums. rewrite (nth_error_firstn_S _ _ _ E), fold_left_app. reflexivity. Qed.

Lemma exact_S l i p : nth_error l i = Some p -> exact l (S i) = exact l i + p.
Proof. intro E. unfold exact. rewrite (nth_error_firstn_S _ _ _ E), fold_left_app. reflexivity. Qed.

Lemma vals_nth l i e : nth_error l i = Some e -> nth_error (vals l) i = Some (val (fst e)).
Proof. apply (map_nth_error (fun e : double * string => val (fst e))). Qed.

Lemma sums_format l i : generic_format radix2 (FLT_exp (-1074) 53) (sums l i).
Proof.
  induction i as [|i IH]; [apply generic_format_0|].
  destruct (nth_error l i) as [p|] eqn:E.
  - rewrite (sums_S _ _ _ E). apply generic_format_round; typeclasses eauto.
  - apply nth_error_None in E. unfold sums in *.
    rewrite (firstn_all2 (n := S i)) by lia. rewrite firstn_all2 in IH by lia. exact IH.
Qed.

Lemma val_format x : generic_format radix2 (FLT_exp (-1074) 53) (val x).
Proof. unfold val. exact (generic_format_B2R 53 1024 x). Qed.

Lemma rnd_format x : generic_format radix2 (FLT_exp (-1074) 53) x -> rnd x = x.
Proof. intro G. apply round_generic; [typeclasses eauto | exact G]. Qed.

(** The running total stays between 0 and the number of terms. *)
Lemma sums_bounds l i : Forall (fun x => 0 <= x <= 1) l -> (Z.of_nat (length l) <= 2 ^ 53)%Z ->
  (i <= length l)%nat -> 0 <= sums l i <= INR i.
Proof.
  intros P L. induction i as [|i IH]; intro Hi.
  - unfold sums. cbn. lra.
  - destruct (nth_error l i) as [p|] eqn:E; [|apply nth_error_None in E; lia].
    specialize (IH ltac:(lia)). rewrite (sums_S _ _ _ E).
    pose proof (proj1 (Forall_forall _ l) P p (nth_error_In _ _ E)) as Hp. cbv beta in Hp.
    rewrite S_INR. split; [apply rnd_nonneg; lra|].
    replace (INR i + 1) with (rnd (INR i + 1)).
    + apply rnd_le. lra.
    + replace (INR i + 1) with (IZR (Z.of_nat (S i))) by (rewrite <- INR_IZR_INZ, S_INR; ring).
      apply rnd_Z. lia.
Qed.

Lemma sums_step l i p : nth_error l i = Some p -> 0 <= p -> sums l i <= sums l (S i).
Proof.
  intros E Hp. rewrite (sums_S _ _ _ E). rewrite <- (rnd_format (sums l i) (sums_format l i)) at 1.
  apply rnd_le. lra.
Qed.

Lemma sums_mono l i j : Forall (fun x => 0 <= x <= 1) l -> (i <= j)%nat -> sums l i <= sums l j.
Proof.
  intros P H. induction H as [|j H IH]; [lra|].
  destruct (nth_error l j) as [p|] eqn:E.
  - pose proof (proj1 (Forall_forall _ l) P p (nth_error_In _ _ E)) as Hp. cbv beta in Hp.
    pose proof (sums_step l j p E ltac:(lra)). lra.
  - apply nth_error_None in E. unfold sums in *. rewrite (firstn_all2 (n := S j)) by lia.
    rewrite (firstn_all2 (n := j)) in IH by lia. exact IH.
Qed.

(** The rounding error of one addition, relative to the rounded sum. *)
Lemma add_error x y : generic_format radix2 (FLT_exp (-1074) 53) x ->
  generic_format radix2 (FLT_exp (-1074) 53) y -> 0 <= x -> 0 <= y ->
  Rabs (rnd (x + y) - (x + y)) <= / 2 ^ 53 * rnd (x + y).
Proof.
  intros Fx Fy Hx Hy.
  destruct (FLT_plus_error_N_round_ex radix2 (-1074) 53 (fun z => negb (Z.even z)) x y Fx Fy)
    as (eps & He & E).
  change (round radix2 (FLT_exp (-1074) 53) (Znearest (fun z => negb (Z.even z))) (x + y))
    with (rnd (x + y)) in E.
  assert (U : u_ro radix2 53 = / 2 ^ 53).
  { unfold u_ro. rewrite (pow_IZR 2 53). change (bpow radix2 (- (53) + 1)) with (/ IZR (2 ^ 52)).
    change (2 ^ Z.of_nat 53)%Z with (2 * 2 ^ 52)%Z. rewrite mult_IZR. field.
    apply IZR_neq. lia. }
  rewrite U in He.
  replace (rnd (x + y) - (x + y)) with (- (rnd (x + y) * eps)) by lra.
  rewrite Rabs_Ropp, Rabs_mult. rewrite (Rabs_pos_eq (rnd (x + y))) by (apply rnd_nonneg; lra).
  rewrite Rmult_comm. apply Rmult_le_compat_r; [apply rnd_nonneg; lra | exact He].
Qed.

(** The loop, described by the running totals. *)
Lemma loop_spec u : finite u = true -> forall r l k t,
  probs l -> (Z.of_nat (length l) <= 2 ^ 53)%Z -> skipn k l = r -> (k <= length l)%nat ->
  finite t = true -> val t = sums (vals l) k ->
  exists j, d_position_loop u t r k = j /\ (k <= j <= length l)%nat /\
    (forall i, (k <= i < j)%nat -> sums (vals l) i < val u) /\
    (j = length l \/ val u <= sums (vals l) j).
Proof.
  intro Fu.
  assert (LT : forall t, finite t = true -> d_ltb t u = Rlt_bool (val t) (val u)).
  { intros t Ft. unfold d_ltb. apply (Bltb_correct 53 1024 t u Ft Fu). }
  induction r as [|[p s] r IH]; intros l k t P L E K Ft Vt; cbn [d_position_loop];
    rewrite (LT t Ft), Vt; destruct (Rlt_bool_spec (sums (vals l) k) (val u)) as [H|H].
  - exists k. split; [reflexivity|]. assert (k = length l).
    { assert (length (skipn k l) = 0%nat) by (rewrite E; reflexivity). rewrite skipn_length in *. lia. }
    subst k. split; [lia|]. split; [intros; lia|]. left; reflexivity.
  - exists k. split; [reflexivity|]. split; [lia|]. split; [intros; lia|]. right; exact H.
  - assert (En : nth_error l k = Some (p, s)).
    { rewrite <- (firstn_skipn k l), E. rewrite nth_error_app2; rewrite firstn_length_le by lia; [|lia].
      replace (k - k)%nat with 0%nat by lia. reflexivity. }
    assert (Kl : (k < length l)%nat) by (apply nth_error_Some; congruence).
    assert (Es : skipn (S k) l = r).
    { rewrite skipn_S_tl, E. reflexivity. }
    pose proof (proj1 (Forall_forall _ l) P _ (nth_error_In _ _ En)) as Pp. cbv beta in Pp.
    cbn [fst] in Pp. destruct Pp as [Fp Bp].
    assert (PV : Forall (fun x => 0 <= x <= 1) (vals l)).
    { unfold vals. apply Forall_map. eapply Forall_impl; [|exact P]. intros e [_ B]. exact B. }
    assert (LV : length (vals l) = length l) by apply map_length.
    pose proof (sums_bounds (vals l) k PV ltac:(lia) ltac:(lia)) as Bs.
    pose proof (vals_nth _ _ _ En) as Ev. cbn [fst] in Ev.
    assert (LK : INR k + 1 <= IZR (2 ^ 53)).
    { replace (INR k + 1) with (IZR (Z.of_nat (S k))) by (rewrite <- INR_IZR_INZ, S_INR; ring).
      apply IZR_le. lia. }
    destruct (d_add_correct t p 53 Ft Fp ltac:(rewrite Vt; lra) ltac:(lia)) as [Fa Va].
    destruct (IH l (S k) (d_add t p) P L Es ltac:(lia) Fa) as (j & Ej & B & A & C).
    { rewrite Va, Vt. symmetry. apply sums_S. exact Ev. }
    exists j. split; [exact Ej|]. split; [lia|]. split; [|exact C].
    intros i Hi. destruct (Nat.eq_dec i k) as [->|N]; [exact H|]. apply A. lia.
  - exists k. split; [reflexivity|]. split; [lia|]. split; [intros; lia|]. right; exact H.
Qed.

Lemma position_spec l u : finite u = true -> probs l -> (Z.of_nat (length l) <= 2 ^ 53)%Z ->
  exists j, d_random_position l u = Nat.pred j /\ (j <= length l)%nat /\
    (forall i, (i < j)%nat -> sums (vals l) i < val u) /\
    (j = length l \/ val u <= sums (vals l) j).
Proof.
  intros Fu P L. destruct (d_of_Z_exact 0 ltac:(lia)) as [F0 V0].
  destruct (loop_spec u Fu l l 0 d_zero P L eq_refl ltac:(lia) F0) as (j & E & B & A & C).
  - exact V0.
  - exists j. unfold d_random_position. rewrite E. split; [reflexivity|]. split; [lia|].
    split; [intros; apply A; lia | exact C].
Qed.
