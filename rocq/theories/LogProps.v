(** Property C60: computing with negative logarithms, as the code does, gives the same as computing
    with the probabilities, as the rest of the model does. *)
From Coq Require Import Reals Lra Permutation.
From Verif Require Import Base Field FieldR LmModel HubModel LogModel WordModel PpmModel.
Local Open Scope R_scope.

(** The number a cost stands for is [exp_neg]: exp(-c), zero for +inf, and nothing usable for -inf
    and NaN. A cost the code may be given: not -inf. *)
Definition no_minus_inf (c : cost) : Prop := c <> MInf.

Lemma Rle_b_false x y : Rle_b x y = false -> y < x.
Proof. unfold Rle_b. destruct (Rle_dec x y); [discriminate|]. lra. Qed.

Lemma sum_formula x y : x <= y -> exp (- (x - ln (1 + exp (x - y)))) = exp (- x) + exp (- y).
Proof.
  intros H. replace (- (x - ln (1 + exp (x - y)))) with (- x + ln (1 + exp (x - y))) by lra.
  pose proof (exp_pos (x - y)). rewrite exp_plus, exp_ln by lra.
  rewrite Rmult_plus_distr_l, <- exp_plus. replace (- x + (x - y)) with (- y) by lra. lra.
Qed.

(** NegLogSum is addition. *)
Theorem C60_sum : forall a b, exp_neg (neg_log_sum a b) = nadd (exp_neg a) (exp_neg b).
Proof.
  intros [x| | |] [y| | |]; cbn [neg_log_sum exp_neg nadd]; auto.
  - destruct (Rle_b x y) eqn:E; cbn [exp_neg]; f_equal.
    + apply Rle_b_iff in E. cbn. apply sum_formula. exact E.
    + apply Rle_b_false in E. cbn. rewrite sum_formula by lra. lra.
  - cbn. f_equal. lra.
  - cbn. f_equal. lra.
  - cbn. f_equal. lra.
Qed.

(** Adding costs is multiplication. *)
Theorem C60_product : forall a b, exp_neg (cadd a b) = nmul (exp_neg a) (exp_neg b).
Proof.
  intros [x| | |] [y| | |]; cbn; auto; f_equal; try lra.
  rewrite Ropp_plus_distr. apply exp_plus.
Qed.

(** Subtracting costs is division (x/0 counts as NaN). *)
Theorem C60_quotient : forall a b, b <> MInf -> exp_neg (csub a b) = ndiv (exp_neg a) (exp_neg b).
Proof.
  assert (E0 : forall y, @feqb R_field (exp (- y)) 0 = false).
  { intro y. apply not_true_is_false. intro H. apply feqb_eq in H. pose proof (exp_pos (- y)). cbn in H. lra. }
  assert (Z : @feqb R_field 0 0 = true) by (apply feqb_eq; reflexivity).
  assert (D1 : forall p y : R, ndiv (Val (F := R_field) p) (Val (F := R_field) (exp (- y))) = Val (F := R_field) (Rdiv p (exp (- y)))).
  { intros p y. cbn [ndiv]. unfold num_div. rewrite E0. reflexivity. }
  assert (D0 : forall p : R, ndiv (Val (F := R_field) p) (Val (F := R_field) 0) = @NaN R_field).
  { intros p. cbn [ndiv]. unfold num_div. rewrite Z. reflexivity. }
  intros [x| | |] [y| | |] N; try congruence; unfold csub; cbn [copp cadd exp_neg]; rewrite ?D1, ?D0; auto.
  - f_equal. replace (- (x + - y)) with (- x + - (- y)) by lra. rewrite exp_plus, (exp_Ropp (- y)). reflexivity.
  - f_equal. unfold Rdiv. rewrite Rmult_0_l. reflexivity.
Qed.

(** Comparing costs is comparing probabilities the other way round. *)
Theorem C60_order : forall a b p q, exp_neg a = Val p -> exp_neg b = Val q -> cge a b = @fle R_field p q.
Proof.
  intros [x| | |] [y| | |] p q; cbn [exp_neg]; intros Ep Eq; try discriminate;
    injection Ep as <-; injection Eq as <-; cbn [cge]; symmetry.
  - cbn. unfold Rle_b. destruct (Rle_dec y x) as [H|H], (Rle_dec (exp (- x)) (exp (- y))) as [K|K]; auto; exfalso.
    + apply K. destruct H as [H| <-]; [left; apply exp_increasing; lra|right; reflexivity].
    + assert (x < y) by lra. assert (exp (- y) < exp (- x)) by (apply exp_increasing; lra). lra.
  - apply not_true_is_false. intro H. apply Rle_b_iff in H. pose proof (exp_pos (- x)). lra.
  - apply Rle_b_iff. left. apply exp_pos.
  - apply Rle_b_iff. lra.
Qed.

(** NegLogDiff is subtraction, where it is used. *)
Theorem C60_difference : forall a b p q, exp_neg a = Val p -> exp_neg b = Val q -> @fle R_field p q = false ->
  exp_neg (neg_log_diff a b) = Val (F := R_field) (Rminus p q).
Proof.
  intros [x| | |] [y| | |] p q; cbn [exp_neg]; intros Ep Eq H; try discriminate;
    injection Ep as <-; injection Eq as <-; cbn [neg_log_diff exp_neg].
  - f_equal. apply Rle_b_false in H. assert (L : x < y).
    { destruct (Rlt_le_dec x y) as [L|L]; auto. exfalso.
      assert (exp (- x) <= exp (- y)); [|lra].
      destruct L as [L| ->]; [left; apply exp_increasing; lra|right; reflexivity]. }
    replace (- (x - ln (1 - exp (x - y)))) with (- x + ln (1 - exp (x - y))) by lra.
    assert (E1 : exp (x - y) < 1) by (rewrite <- exp_0; apply exp_increasing; lra).
    rewrite exp_plus, exp_ln by lra. rewrite Rmult_minus_distr_l, <- exp_plus.
    replace (- x + (x - y)) with (- y) by lra. lra.
  - f_equal. cbn. lra.
  - exfalso. apply Rle_b_false in H. pose proof (exp_pos (- y)). lra.
  - exfalso. apply Rle_b_false in H. lra.
Qed.

(** SafeNegLogDiff is the cut-off subtraction of the model of the word model. *)
Theorem C60_safe_difference : forall a b p q, exp_neg a = Val p -> exp_neg b = Val q ->
  exp_neg (safe_neg_log_diff a b) = Val (safe_diff (F := R_field) p q).
Proof.
  intros a b p q Ep Eq. unfold safe_neg_log_diff, safe_diff. rewrite (C60_order a b p q Ep Eq).
  destruct (@fle R_field p q) eqn:H; [reflexivity|]. apply C60_difference; auto.
Qed.

(** -std::log undoes exp. *)
Theorem C60_log : forall p, 0 <= p -> exp_neg (neg_log p) = Val (F := R_field) p.
Proof.
  intros p H. unfold neg_log. destruct (Rle_dec p 0) as [L|L].
  - assert (p = 0) by lra. subst p. destruct (Rle_dec 0 0); [reflexivity|lra].
  - cbn. f_equal. rewrite Ropp_involutive. apply exp_ln. lra.
Qed.

Lemma neg_log_sum_no a b : a <> MInf -> b <> MInf -> neg_log_sum a b <> MInf.
Proof. destruct a, b; cbn; try congruence. destruct (Rle_b r r0); congruence. Qed.
Lemma fold_no l : forall x, x <> MInf -> Forall no_minus_inf l -> fold_left neg_log_sum l x <> MInf.
Proof.
  induction l as [|y l IH]; intros x H HF; cbn [fold_left]; auto. inversion HF; subst.
  apply IH; auto. apply neg_log_sum_no; auto.
Qed.
Lemma total_no l : Forall no_minus_inf l -> neg_log_total l <> MInf.
Proof. destruct l as [|x l]; cbn; [discriminate|]. intro H. inversion H; subst. apply fold_no; auto. Qed.
Lemma fold_hom l : forall x, exp_neg (fold_left neg_log_sum l x) = fold_left nadd (map exp_neg l) (exp_neg x).
Proof. induction l as [|y l IH]; intros x; cbn [fold_left map]; auto. rewrite IH, C60_sum. reflexivity. Qed.
Lemma total_hom l : exp_neg (neg_log_total l) = nsum (map exp_neg l).
Proof. destruct l as [|x l]; cbn [neg_log_total map nsum]; [reflexivity|apply fold_hom]. Qed.

Lemma fold_vals (l : list R) : forall x : R, fold_left nadd (map (Val (F := R_field)) l) (Val (F := R_field) x) =
  Val (fold_left (@fadd R_field) l x).
Proof. induction l as [|y l IH]; intros x; cbn [fold_left map]; auto. rewrite <- IH. reflexivity. Qed.

(** SoftmaxRenormalize. *)
Theorem C60_softmax : forall costs probs, map exp_neg costs = map (Val (F := R_field)) probs ->
  match softmax_log costs with Ok l => Ok (map exp_neg l) | Err => Err | Crash => Crash | UB => UB end
  = softmax_renormalize (F := R_field) probs.
Proof.
  intros costs probs H. destruct costs as [|c costs], probs as [|p probs]; try discriminate; [reflexivity|].
  unfold softmax_log, softmax_renormalize. f_equal.
  assert (N : Forall no_minus_inf (c :: costs)).
  { rewrite Forall_forall. intros a Ha. apply (in_map exp_neg) in Ha. rewrite H in Ha. apply in_map_iff in Ha.
    destruct Ha as [x [Ex _]]. intros ->. discriminate. }
  assert (T : exp_neg (fold_left neg_log_sum costs c) = Val (fold_left (@fadd R_field) probs p)).
  { rewrite fold_hom. cbn [map] in H. injection H as Hc H. rewrite Hc, H. apply fold_vals. }
  assert (M : fold_left neg_log_sum costs c <> MInf) by (inversion N; subst; apply fold_no; auto).
  revert T M. generalize (fold_left neg_log_sum costs c) as tot. intros tot T M.
  generalize (fold_left (@fadd R_field) probs p) T. clear T. intros tp T.
  rewrite map_map. transitivity (map (fun x => ndiv (exp_neg x) (Val tp)) (c :: costs)).
  - apply map_ext. intro a. rewrite C60_quotient, T; auto.
  - transitivity (map (fun x => ndiv x (Val tp)) (map exp_neg (c :: costs))); [rewrite map_map; reflexivity|].
    rewrite H, map_map. reflexivity.
Qed.

(** The mixture weights of a hub, fixed and Bayesian. *)
Theorem C60_weights : forall ws, Forall no_minus_inf ws ->
  map exp_neg (weights_log ws) = map (fun w => ndiv w (nsum (map exp_neg ws))) (map exp_neg ws).
Proof.
  intros ws H. unfold weights_log. rewrite !map_map. apply map_ext. intro w.
  rewrite C60_quotient by (apply total_no; auto). rewrite total_hom. reflexivity.
Qed.
Lemma zip_hom : forall ws sums ps, map exp_neg sums = map (Val (F := R_field)) ps ->
  Forall no_minus_inf ws ->
  match zip_costs ws sums with
  | Ok l => zip_weights (map exp_neg ws) ps = Ok (map exp_neg l) /\ Forall no_minus_inf l
  | Err => False | Crash => False
  | UB => zip_weights (F := R_field) (map exp_neg ws) ps = UB
  end.
Proof.
  induction ws as [|w ws IH]; intros sums ps H N; cbn [zip_costs map zip_weights]; [split; [reflexivity|constructor]|].
  destruct sums as [|s sums], ps as [|p ps]; try discriminate; [reflexivity|].
  cbn [map] in H. injection H as Hs H. inversion N; subst. specialize (IH sums ps H H3).
  destruct (zip_costs ws sums) as [l| | |]; try contradiction; cbn [bind].
  - destruct IH as [-> IH2]. cbn [bind map]. rewrite <- Hs, C60_product. split; auto. constructor; auto.
    unfold no_minus_inf in *. destruct w, s; cbn in *; congruence.
  - rewrite IH. reflexivity.
Qed.
Theorem C60_bayesian_weights : forall ws sums ps, map exp_neg sums = map (Val (F := R_field)) ps ->
  Forall no_minus_inf ws ->
  match bayes_weights_log ws sums with Ok l => Ok (map exp_neg l) | Err => Err | Crash => Crash | UB => UB end =
  let* l := zip_weights (F := R_field) (map exp_neg ws) ps in Ok (map (fun w => ndiv w (nsum l)) l).
Proof.
  intros ws sums ps H N. unfold bayes_weights_log. pose proof (zip_hom ws sums ps H N) as Z.
  destruct (zip_costs ws sums) as [l| | |]; try contradiction; cbn [bind].
  - destruct Z as [-> Z]. cbn [bind]. f_equal. rewrite !map_map. apply map_ext. intro w.
    rewrite C60_quotient by (apply total_no; auto). rewrite total_hom. reflexivity.
  - rewrite Z. reflexivity.
Qed.

(** The mixture of score lists. *)
Definition on_snd {A B C} (f : B -> C) (l : list (A * B)) : list (A * C) := map (fun e => (fst e, f (snd e))) l.
Lemma mix_add_hom k v acc :
  on_snd exp_neg (mix_add_log k v acc) = mix_add k (exp_neg v) (on_snd exp_neg acc).
Proof.
  induction acc as [|[k' x] t IH]; cbn [mix_add_log mix_add on_snd map fst snd]; [reflexivity|].
  destruct (str_eqb k' k); cbn [map fst snd]; [rewrite C60_sum; reflexivity|]. f_equal. exact IH.
Qed.
Theorem C60_mix : forall sc w acc, Forall (fun e => 0 <= snd e) (sc_entries sc) ->
  on_snd exp_neg (mix_results_log sc w acc) = mix_results (F := R_field) sc (exp_neg w) (on_snd exp_neg acc).
Proof.
  intros [n e] w. unfold mix_results_log, mix_results. cbn [sc_entries]. induction e as [|[k p] t IH]; intros acc H; cbn [fold_left].
  - reflexivity.
  - inversion H; subst. rewrite IH by auto. rewrite mix_add_hom, C60_product, C60_log by auto. reflexivity.
Qed.
Lemma mix_no sc w : w <> MInf -> Forall (fun e => 0 <= snd e) (sc_entries sc) -> forall acc,
  Forall no_minus_inf (map snd acc) -> Forall no_minus_inf (map snd (mix_results_log sc w acc)).
Proof.
  intros Hw. unfold mix_results_log. induction (sc_entries sc) as [|[k p] t IH]; intros H acc N; cbn [fold_left]; auto.
  inversion H; subst. apply IH; auto.
  assert (V : cadd (neg_log p) w <> MInf).
  { cbn [snd] in H2. unfold neg_log. destruct (Rle_dec p 0) as [L|L].
    - destruct (Rle_dec 0 p); [|contradiction]. destruct w; cbn; congruence.
    - destruct w; cbn; congruence. }
  clear -N V. induction acc as [|[k' x] t IH]; cbn [mix_add_log map snd] in *; [constructor; auto; constructor|].
  inversion N; subst. destruct (str_eqb k' k); cbn [map snd]; constructor; auto. apply neg_log_sum_no; auto.
Qed.
Lemma sort_hom l : on_snd exp_neg (fold_right insert_key_log [] l) = sort_keys (on_snd exp_neg l).
Proof.
  assert (I : forall x l, on_snd exp_neg (insert_key_log x l) = insert_key (fst x, exp_neg (snd x)) (on_snd exp_neg l)).
  { intros x l0. induction l0 as [|y t IH]; cbn [insert_key_log insert_key on_snd map fst snd]; [reflexivity|].
    destruct (str_leb (fst x) (fst y)); cbn [map fst snd]; [reflexivity|]. f_equal. exact IH. }
  induction l as [|x t IH]; cbn [fold_right]; [reflexivity|]. rewrite I, IH. reflexivity.
Qed.
Theorem C60_extract : forall mixed norm, Forall no_minus_inf (map snd mixed) ->
  extract_mixture_log mixed = sc_entries (extract_mixture (F := R_field) (on_snd exp_neg mixed) norm).
Proof.
  intros mixed norm N. unfold extract_mixture_log, extract_mixture. cbn [sc_entries]. rewrite <- sort_hom.
  assert (T : nsum (map snd (on_snd exp_neg mixed)) = exp_neg (neg_log_total (map snd mixed))).
  { rewrite total_hom. unfold on_snd. rewrite !map_map. reflexivity. }
  rewrite T. unfold on_snd at 1. rewrite map_map. apply map_ext. intros [k v]. cbn [fst snd].
  rewrite C60_quotient; [reflexivity|apply total_no; auto].
Qed.

(** The probability of a symbol at a PPM state. *)
Theorem C60_ppm : forall count beta den low pc pb pd pl at_unigram,
  exp_neg count = Val (F := R_field) pc -> exp_neg beta = Val (F := R_field) pb ->
  exp_neg den = Val (F := R_field) pd -> exp_neg low = Val (F := R_field) pl -> 0 < pd ->
  option_map exp_neg (update_index_prob_log count beta den low at_unigram) =
  option_map (@Val R_field) (update_index_prob (F := R_field) pc pb pd pl at_unigram).
Proof.
  intros count beta den low pc pb pd pl at_unigram Ec Eb Ed El Hd.
  assert (Nd : den <> MInf) by (intros ->; discriminate).
  assert (Fd : @feqb R_field pd 0 = false).
  { apply not_true_is_false. intro H. apply feqb_eq in H. cbn in H. lra. }
  unfold update_index_prob_log, update_index_prob. destruct at_unigram; cbn [option_map].
  - rewrite C60_quotient, Ec, Ed by auto. cbn [ndiv]. unfold num_div. rewrite Fd. reflexivity.
  - rewrite (C60_order _ _ _ _ Ec Eb). destruct (@fle R_field pc pb) eqn:H; [reflexivity|].
    cbn [option_map]. rewrite C60_sum, C60_quotient, (C60_difference _ _ _ _ Ec Eb H), El, Ed by auto.
    cbn [ndiv]. unfold num_div. rewrite Fd. reflexivity.
Qed.
Print Assumptions C60_sum.
Print Assumptions C60_product.
Print Assumptions C60_quotient.
Print Assumptions C60_order.
Print Assumptions C60_difference.
Print Assumptions C60_safe_difference.
Print Assumptions C60_log.
Print Assumptions C60_softmax.
Print Assumptions C60_weights.
Print Assumptions C60_bayesian_weights.
Print Assumptions C60_mix.
Print Assumptions C60_extract.
Print Assumptions C60_ppm.

(** The hypotheses are met: costs ln 2, ln 4 and +inf stand for 1/2, 1/4 and 0. *)
Example C60_example : map exp_neg [Fin (ln 2); Fin (ln 4); PInf] = map (Val (F := R_field)) [/ 2; / 4; 0].
Proof. cbn. rewrite !exp_Ropp, !exp_ln by lra. reflexivity. Qed.
