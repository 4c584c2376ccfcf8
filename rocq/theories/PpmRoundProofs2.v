(** The probabilities of a back-off path are those of the reference description of PPM. *)
From Coq Require Import Reals Lra Lia.
From Verif Require Import Base Field FieldR LogProps RoundSpec RoundProofs PpmRoundModel PpmRoundSpec PpmRoundSpec2.
From Verif Require PpmSpec.
Local Open Scope R_scope.

Lemma fsum_rsum (l : list R) : @fsum R_field l = rsum l.
Proof. induction l as [|x l IH]; [reflexivity|]. cbn [fsum fold_right] in *. rewrite rsum_cons, <- IH. reflexivity. Qed.

Lemma rsum_div (l : list R) (d : R) : rsum (map (fun x => x / d) l) = rsum l / d.
Proof.
  induction l as [|x l IH]; [unfold rsum, Rdiv; cbn; ring|]. cbn [map]. rewrite !rsum_cons, IH. unfold Rdiv. ring.
Qed.

Lemma rsum_pos_all (l : list R) : l <> [] -> Forall (fun x => 0 < x) l -> 0 < rsum l.
Proof.
  intros Ne H. destruct l as [|x l]; [contradiction|]. rewrite rsum_cons. apply Forall_cons_iff in H. destruct H as [H1 H2].
  assert (0 <= rsum l); [|lra]. clear - H2. induction H2 as [|y l Hy _ IH]; [unfold rsum; cbn; lra|]. rewrite rsum_cons. lra.
Qed.

Lemma feqb_R (x y : R) : @feqb R_field x y = true <-> x = y.
Proof. exact (@feqb_eq R_field x y). Qed.

Section Reference.
  Variable V : nat.
  Variables alpha beta : R.
  Variable C : @PpmSpec.counts R_field.
  Hypothesis alpha_pos : 0 < alpha.
  Hypothesis counts_nonneg : forall h x, In x (PpmSpec.symbols V) -> 0 <= (C h x : R).
  Hypothesis unigram_pos : forall x, In x (PpmSpec.symbols V) -> 0 < (C [] x : R).
  Let P h x : R := PpmSpec.prob (F := R_field) V alpha beta C h x.
  Let T h : R := PpmSpec.total V C h.
  Let k h : R := INR (seen (tc_syms (counted_after V C h))).

  Lemma symbols_ne : PpmSpec.symbols V <> [].
  Proof. unfold PpmSpec.symbols. cbn. discriminate. Qed.

  Lemma total_rsum h : T h = rsum (map (fun x => C h x : R) (PpmSpec.symbols V)).
  Proof. apply fsum_rsum. Qed.

  Lemma flt_R' (x : R) : @flt R_field f0 x = true <-> 0 < x.
  Proof. apply flt_R. Qed.

  Lemma seen_filter (f : Z -> R) l :
    seen (map (fun x => if @flt R_field f0 (f x) then Some (f x : R) else None) l) =
    length (filter (fun x => @flt R_field f0 (f x)) l).
  Proof.
    induction l as [|x l IH]; [reflexivity|]. cbn [map filter]. destruct (@flt R_field f0 (f x)); cbn [seen length]; rewrite IH; reflexivity.
  Qed.

  Lemma kinds_k h : @ofZ R_field (PpmSpec.kinds V C h) = k h.
  Proof.
    unfold PpmSpec.kinds, k, counted_after. cbn [tc_syms]. rewrite (seen_filter (fun x => C h x : R)), ofZ_R, <- INR_IZR_INZ. reflexivity.
  Qed.

  Lemma P_nil x : P [] x = (C [] x : R) / T [].
  Proof. reflexivity. Qed.

  Lemma P_cons c h x : P (c :: h) x =
    ((if @flt R_field f0 (C (c :: h) x) then (C (c :: h) x : R) - beta else 0) + (k (c :: h) * beta + alpha) * P h x)
      / (T (c :: h) + alpha).
  Proof. rewrite <- kinds_k. reflexivity. Qed.

  Lemma zero_total h : T h = 0 -> forall x, In x (PpmSpec.symbols V) -> (C h x : R) = 0.
  Proof.
    intros E x Hx. rewrite total_rsum in E. revert E x Hx. pose proof (counts_nonneg h) as N.
    revert N. generalize (PpmSpec.symbols V) as l. clear. induction l as [|y l IH]; intros N E x Hx; [contradiction|].
    cbn [map] in E. rewrite rsum_cons in E.
    assert (H0 : 0 <= (C h y : R)) by (apply N; left; reflexivity).
    assert (H1 : 0 <= rsum (map (fun x => C h x : R) l)).
    { clear - N. induction l as [|z l IH]; [unfold rsum; cbn; lra|]. cbn [map]. rewrite rsum_cons.
      assert (0 <= (C h z : R)) by (apply N; right; left; reflexivity).
      assert (0 <= rsum (map (fun x => C h x : R) l)); [|lra]. apply IH. intros w [->|Hw]; apply N; [left|right; right]; auto. }
    destruct Hx as [->|Hx]; [lra|]. apply (IH (fun w Hw => N w (or_intror Hw))); [lra | exact Hx].
  Qed.

  Lemma sum_blend h (Q : Z -> R) l : (forall x, In x l -> 0 <= (C h x : R)) -> 0 < T h + alpha ->
    let b := fun x => ((if @flt R_field f0 (C h x) then (C h x : R) - beta else 0) + (k h * beta + alpha) * Q x) / (T h + alpha) in
    rsum (map b l) =
    (rsum (map (fun x => C h x : R) l)
      - INR (seen (map (fun x => if @flt R_field f0 (C h x) then Some (C h x : R) else None) l)) * beta
      + (k h * beta + alpha) * rsum (map Q l)) / (T h + alpha).
  Proof.
    intros N D b. induction l as [|x l IH].
    - unfold rsum. cbn [map fold_right seen INR]. field. lra.
    - cbn [map]. rewrite !rsum_cons, IH by (intros y Hy; apply N; right; exact Hy). unfold b at 1.
      pose proof (N x (or_introl eq_refl)) as Nx.
      destruct (@flt R_field f0 (C h x)) eqn:E; cbn [seen]; rewrite ?S_INR.
      + field. lra.
      + assert (Z0 : (C h x : R) = 0).
        { assert (~ 0 < (C h x : R)); [|lra]. intro X. apply flt_R' in X. congruence. }
        rewrite Z0. field. lra.
  Qed.

  Lemma total_nonneg h : 0 <= T h.
  Proof.
    rewrite total_rsum. pose proof (counts_nonneg h) as N. revert N. generalize (PpmSpec.symbols V) as l. clear. induction l as [|y l IH]; intros N.
    - unfold rsum. cbn. lra.
    - cbn [map]. rewrite rsum_cons. pose proof (N y (or_introl eq_refl)).
      assert (0 <= rsum (map (fun x => C h x : R) l)); [|lra]. apply IH. intros w Hw. apply N. right. exact Hw.
  Qed.

  Lemma P_sum h : rsum (map (P h) (PpmSpec.symbols V)) = 1.
  Proof.
    induction h as [|c h IH].
    - assert (T0 : 0 < T []).
      { rewrite total_rsum. apply rsum_pos_all; [intro X; apply map_eq_nil in X; exact (symbols_ne X)|].
        apply Forall_forall. intros y Hy. apply in_map_iff in Hy. destruct Hy as (x & <- & Hx). apply unigram_pos. exact Hx. }
      rewrite (map_ext (P []) (fun x => (C [] x : R) / T []) P_nil).
      rewrite <- (map_map (fun x => C [] x : R) (fun y => y / T [])), rsum_div, <- total_rsum. field. lra.
    - pose proof (total_nonneg (c :: h)) as N.
      rewrite (map_ext (P (c :: h)) _ (P_cons c h)).
      rewrite (sum_blend (c :: h) (P h) (PpmSpec.symbols V)) by (try lra; intros; apply counts_nonneg; assumption).
      rewrite IH, <- total_rsum. fold (k (c :: h)).
      change (INR (seen (map (fun x => if @flt R_field f0 (C (c :: h) x) then Some (C (c :: h) x : R) else None) (PpmSpec.symbols V))))
        with (k (c :: h)). field. lra.
  Qed.

  Lemma blend_map den g (f Q : Z -> R) l :
    blend beta den g (map (fun x => if @flt R_field f0 (f x) then Some (f x : R) else None) l) (map Q l) =
    map (fun x => if @flt R_field f0 (f x) then g * Q x + (f x - beta) / den else g * Q x) l.
  Proof. induction l as [|x l IH]; [reflexivity|]. cbn [map blend]. rewrite IH. destruct (@flt R_field f0 (f x)); reflexivity. Qed.

  Lemma renormalise_one l : rsum l = 1 -> renormalise l = l.
  Proof.
    intro E. unfold renormalise. rewrite E. rewrite <- (map_id l) at 2. apply map_ext. intro x. field.
  Qed.

  Lemma path_ne h : back_off_path V C h <> [].
  Proof. induction h as [|c h IH]; cbn [back_off_path]; [discriminate|]. destruct (feqb _ _); [exact IH | discriminate]. Qed.

  Lemma path_probs h : ppm_probs alpha beta (back_off_path V C h) = map (P h) (PpmSpec.symbols V).
  Proof.
    induction h as [|c h IH].
    - cbn [back_off_path ppm_probs]. unfold unigram_raw. cbn [counted_after tc_syms tc_total]. rewrite map_map.
      assert (T0 : 0 < T []).
      { rewrite total_rsum. apply rsum_pos_all; [intro X; apply map_eq_nil in X; exact (symbols_ne X)|].
        apply Forall_forall. intros y Hy. apply in_map_iff in Hy. destruct Hy as (x & <- & Hx). apply unigram_pos. exact Hx. }
      rewrite (map_ext_in _ (fun x => (C [] x : R) / (T [] + alpha))).
      2: { intros x Hx. pose proof (unigram_pos x Hx) as U. apply flt_R' in U. rewrite U. reflexivity. }
      unfold renormalise. rewrite map_map. apply map_ext. intro x. rewrite P_nil.
      rewrite <- (map_map (fun x => C [] x : R) (fun y => y / (T [] + alpha))), rsum_div, <- total_rsum. field. lra.
    - cbn [back_off_path]. destruct (feqb _ _) eqn:E.
      + apply feqb_R in E. rewrite IH. apply map_ext_in. intros x Hx. rewrite P_cons.
        assert (ET : T (c :: h) = 0) by exact E. pose proof (zero_total _ ET) as Z0. rewrite ET.
        assert (K0 : k (c :: h) = 0).
        { unfold k, counted_after. cbn [tc_syms]. rewrite (seen_filter (fun x => C (c :: h) x : R)).
          replace (filter (fun x0 : Z => @flt R_field f0 (C (c :: h) x0)) (PpmSpec.symbols V)) with (@nil Z); [reflexivity|].
          clear - Z0. revert Z0. induction (PpmSpec.symbols V) as [|y l IHl]; intro Z0; [reflexivity|]. cbn [filter].
          destruct (@flt R_field f0 (C (c :: h) y)) eqn:F.
          - apply flt_R' in F. rewrite (Z0 y (or_introl eq_refl)) in F. lra.
          - apply IHl. intros w Hw. apply Z0. right. exact Hw. }
        rewrite K0. destruct (@flt R_field f0 (C (c :: h) x)) eqn:F.
        * apply flt_R' in F. rewrite (Z0 x Hx) in F. lra.
        * field. lra.
      + assert (NT : T (c :: h) <> 0). { intro X. apply feqb_R in X. pose proof (eq_trans (eq_sym X) E) as Y. discriminate Y. }
        pose proof (total_nonneg (c :: h)) as NN.
        assert (EB : blend beta (T (c :: h) + alpha) (gamma_of alpha beta (counted_after V C (c :: h)))
            (tc_syms (counted_after V C (c :: h))) (ppm_probs alpha beta (back_off_path V C h)) =
          map (P (c :: h)) (PpmSpec.symbols V)).
        { rewrite IH. unfold counted_after at 2. cbn [tc_syms]. rewrite (blend_map _ _ (fun x => C (c :: h) x : R)).
          apply map_ext. intro x. rewrite P_cons. unfold gamma_of. fold (k (c :: h)).
          change (tc_total (counted_after V C (c :: h))) with (T (c :: h)).
          destruct (@flt R_field f0 (C (c :: h) x)); field; lra. }
        destruct (back_off_path V C h) as [|t0 ts0] eqn:EP; [exfalso; exact (path_ne h EP)|].
        cbn [ppm_probs] in *.
        change (tc_total (counted_after V C (c :: h))) with (T (c :: h)).
        etransitivity; [apply f_equal; exact EB|]. apply renormalise_one, P_sum.
  Qed.
End Reference.
