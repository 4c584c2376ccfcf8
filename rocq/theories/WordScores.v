(** ExtractLMScores of the word model gives the predictions of the specification. *)
From Coq Require Import Field.
From Verif Require Import Base Field LmModel HubModel HubSpec HubProofs HubMix PpmModel NgramModel NgramSpec
  NgramProofs NgramProps WordModel WordSpec WordLex WordIndex WordRange WordState WordNext WordCache LmProofs.
Local Open Scope Z_scope.

(** Positions [b..e] (from 1) of a list. *)
Definition seg {A} (l : list A) (b e : Z) : list A := firstn (Z.to_nat (e - b + 1)) (skipn (Z.to_nat (b - 1)) l).

Lemma firstn_seg {A} (l : list A) b e : 1 <= b -> b - 1 <= e ->
  firstn (Z.to_nat e) l = firstn (Z.to_nat (b - 1)) l ++ seg l b e.
Proof.
  intros H1 H2. unfold seg. replace (Z.to_nat e) with (Z.to_nat (b - 1) + Z.to_nat (e - b + 1))%nat by lia.
  generalize (Z.to_nat (b - 1)) as i. generalize (Z.to_nat (e - b + 1)) as j. clear.
  intros j i. revert l. induction i as [|i IH]; intros l; simpl; auto.
  destruct l as [|x l]; simpl; [rewrite firstn_nil; auto|]. f_equal. apply IH.
Qed.
Lemma seg_app {A} (l : list A) b x e : 1 <= b -> b - 1 <= x <= e -> seg l b e = seg l b x ++ seg l (x + 1) e.
Proof.
  intros H1 H2. apply (app_inv_head (firstn (Z.to_nat (b - 1)) l)).
  rewrite app_assoc, <- !firstn_seg by lia.
  rewrite (firstn_seg l (x + 1) e) by lia. do 2 f_equal. lia.
Qed.
Lemma filter_seg_nat {A} (P : A -> bool) (l : list A) : forall a k,
  (forall i x, nth_error l i = Some x -> (P x = true <-> (a <= i < a + k)%nat)) ->
  filter P l = firstn k (skipn a l).
Proof.
  induction l as [|x t IH]; intros a k H.
  - rewrite skipn_nil, firstn_nil. reflexivity.
  - cbn [filter]. destruct a as [|a].
    + cbn [skipn]. destruct k as [|k].
      * cbn [firstn]. assert (E : filter P t = firstn 0 (skipn 0 t)).
        { apply IH. intros i y Hy. rewrite (H (S i) y Hy). lia. }
        cbn [firstn] in E. rewrite E. destruct (P x) eqn:Q; auto.
        apply (H 0%nat x eq_refl) in Q. lia.
      * cbn [firstn]. assert (Q : P x = true) by (apply (H 0%nat x eq_refl); lia). rewrite Q.
        f_equal. change t with (skipn 0 t) at 2. apply IH. intros i y Hy. rewrite (H (S i) y Hy). lia.
    + cbn [skipn]. destruct (P x) eqn:Q.
      { apply (H 0%nat x eq_refl) in Q. lia. }
      apply IH. intros i y Hy. rewrite (H (S i) y Hy). lia.
Qed.
Lemma range_filter ws p b e : range ws p b e -> filter (prefixb p) ws = seg ws b e.
Proof.
  intros [R1 [R2 R3]]. unfold seg. apply filter_seg_nat. intros i x Hx.
  pose proof (nth_error_Some_lt _ _ _ _ Hx) as L.
  specialize (R3 (Z.of_nat i + 1) ltac:(lia)).
  assert (E : wat ws (Z.of_nat i + 1) = x).
  { unfold wat. replace (Z.to_nat (Z.of_nat i + 1 - 1)) with i by lia. apply nth_error_nth. auto. }
  rewrite E in R3. rewrite R3. lia.
Qed.
Lemma seg_one ws i : 1 <= i <= Z.of_nat (length ws) -> seg ws i i = [wat ws i].
Proof.
  intros H. unfold seg. replace (Z.to_nat (i - i + 1)) with 1%nat by lia.
  pose proof (wat_nth ws i H) as N. revert N. generalize (wat ws i) as x, (Z.to_nat (i - 1)) as j. clear.
  intros x j. revert ws. induction j as [|j IH]; intros [|y ws] N; simpl in *; try discriminate.
  - injection N as ->. reflexivity.
  - apply IH. auto.
Qed.
Lemma seg_In {A} (l : list A) b e x : In x (seg l b e) -> In x l.
Proof.
  unfold seg. intros I. rewrite <- (firstn_skipn (Z.to_nat (b - 1)) l). apply in_or_app. right.
  rewrite <- (firstn_skipn (Z.to_nat (e - b + 1)) (skipn (Z.to_nat (b - 1)) l)). apply in_or_app. auto.
Qed.

(** * Groups *)
Section Groups.
  Context {F : ofield}.
  Add Field FfieldWs1 : (f_th F).
  Variable ws : list str.
  Variable h : str -> car F.
  Variable g : Z -> Z.

  Definition segsum (b e : Z) : car F := fsum (map h (seg ws b e)).
  Fixpoint gprobs (b : Z) (ends : list Z) : list (car F) :=
    match ends with [] => [] | x :: t => segsum b x :: gprobs (x + 1) t end.

  Lemma grp_length b e ends chars : grp g b e ends chars -> length chars = length ends.
  Proof. induction 1; simpl; lia. Qed.
  Lemma gprobs_length ends : forall b, length (gprobs b ends) = length ends.
  Proof. induction ends as [|x t IH]; intros b; simpl; auto. Qed.

  Lemma gprobs_sum b e ends chars : 1 <= b -> grp g b e ends chars -> fsum (gprobs b ends) = segsum b e.
  Proof.
    intros H G. induction G as [b e L U|b x e ends chars L U N G IH]; cbn [gprobs].
    - rewrite fsum_cons, fsum_nil. ring.
    - rewrite fsum_cons, IH by lia. unfold segsum. rewrite (seg_app ws b x e) by lia.
      rewrite map_app, fsum_app. reflexivity.
  Qed.

  Lemma grp_mem b e ends chars c v : grp g b e ends chars -> In (c, v) (combine chars (gprobs b ends)) ->
    (forall i l j, b <= i -> i <= l <= j -> j <= e -> g i = g j -> g l = g i) ->
    exists b' e', b <= b' <= e' /\ e' <= e /\ c = [g b'] /\ v = segsum b' e' /\
      (forall i, b <= i <= e -> (g i = g b' <-> b' <= i <= e')).
  Proof.
    intros G. induction G as [b e L U|b x e ends chars L U N G IH]; cbn [gprobs combine]; intros I CV.
    - destruct I as [I|[]]. injection I as <- <-. exists b, e. split; [lia|]. split; [lia|]. split; auto. split; auto.
      intros i Hi. split; auto.
    - destruct I as [I|I].
      + injection I as <- <-. exists b, x. split; [lia|]. split; [lia|]. split; auto. split; auto.
        intros i Hi. split; [|intros; apply U; lia]. intros E. split; [lia|].
        destruct (Z.le_gt_cases i x); auto. exfalso. apply N. apply (CV b (x + 1) i); auto; lia.
      + destruct (IH I) as [b' [e' [A1 [A2 [A3 [A4 A5]]]]]].
        { intros i l j H1 H2 H3. apply CV; lia. }
        exists b', e'. split; [lia|]. split; [lia|]. split; auto. split; auto.
        intros i Hi. destruct (Z.le_gt_cases i x) as [Li|Li].
        * split; [|lia]. intros E. exfalso. apply N.
          rewrite (CV i (x + 1) b') by (auto; lia). apply U. lia.
        * apply A5. lia.
  Qed.
  Lemma grp_cover b e ends chars i : grp g b e ends chars -> b <= i <= e ->
    exists v, In ([g i], v) (combine chars (gprobs b ends)).
  Proof.
    intros G. induction G as [b e L U|b x e ends chars L U N G IH]; cbn [gprobs combine]; intros Hi.
    - eexists. left. rewrite (U i) by lia. reflexivity.
    - destruct (Z.le_gt_cases i x).
      + eexists. left. rewrite (U i) by lia. reflexivity.
      + destruct IH as [v I]; [lia|]. exists v. right. auto.
  Qed.
  Lemma grp_chars b e ends chars c : grp g b e ends chars -> In c chars -> exists i, b <= i <= e /\ c = [g i].
  Proof.
    intros G. induction G as [b e L U|b x e ends chars L U N G IH]; intros [I|I]; try contradiction.
    - exists b. split; [lia|auto].
    - exists b. split; [lia|auto].
    - destruct (IH I) as [i [A B]]. exists i. split; [lia|auto].
  Qed.
  Lemma grp_nodup b e ends chars : grp g b e ends chars ->
    (forall i l j, b <= i -> i <= l <= j -> j <= e -> g i = g j -> g l = g i) -> NoDup chars.
  Proof.
    intros G. induction G as [b e L U|b x e ends chars L U N G IH]; intros CV.
    - repeat constructor. intros [].
    - constructor.
      + intros I. destruct (grp_chars _ _ _ _ _ G I) as [i [A B]]. injection B as B. apply N.
        apply (CV b (x + 1) i); auto; lia.
      + apply IH. intros i l j H1 H2 H3. apply CV; lia.
  Qed.
  Lemma grp_fun b e ends chars : grp g b e ends chars -> forall ends' chars', grp g b e ends' chars' ->
    ends = ends' /\ chars = chars'.
  Proof.
    intros G. induction G as [b e L U|b x e ends chars L U N G IH]; intros ends' chars' G'.
    - inversion G' as [|? x' ? ends2 chars2 L' U' N' G2]; subst; auto. exfalso. apply N'. apply U. lia.
    - inversion G' as [|? x' ? ends2 chars2 L' U' N' G2]; subst.
      + exfalso. apply N. apply H0. lia.
      + assert (x = x').
        { destruct (Z.lt_trichotomy x x') as [X|[X|X]]; auto; exfalso.
          - apply N. apply U'. lia.
          - apply N'. apply U. lia. }
        subst x'. destruct (IH _ _ G2) as [-> ->]. auto.
  Qed.
End Groups.

Record winv {F} (m : word F) (ws : list str) : Prop := {
  wi_base : wbase m ws;
  wi_arcs : arcs_ok (wm_ng m);
  wi_cache : cinv (wm_ng m) ws m
}.

Section Scores.
  Context {F : ofield}.
  Add Field FfieldWs2 : (f_th F).
  Variable ng : ngram F.
  Variable ws : list str.
  Hypothesis LD : loaded ng.
  Hypothesis AO : arcs_ok ng.
  Let f := ng_fst ng.
  Let num := Z.of_nat (length f).
  Let K := Z.of_nat (length ws).
  Let lab := find_label (ng_syms ng).
  Lemma CANf : canonical f. Proof. exact (proj1 (ld_facts ng LD)). Qed.
  Local Notation CAN := CANf.

  Definition wprob (s : Z) (w : str) : car F := pf ng s (find_label (ng_syms ng) w).

  Lemma wat_firstn i : (i < length ws)%nat -> firstn (S i) ws = firstn i ws ++ [wat ws (Z.of_nat (S i))].
  Proof.
    intros H. unfold wat. replace (Z.to_nat (Z.of_nat (S i) - 1)) with i by lia.
    revert H. generalize ws as l. induction i as [|i IH]; intros [|x l] H; simpl in *; try lia; auto.
    f_equal. apply IH. lia.
  Qed.
  Lemma cumw_sum s i : (i <= length ws)%nat ->
    cumw ng ws s i = fadd (pf ng s 0) (fsum (map (wprob s) (firstn i ws))).
  Proof.
    induction i as [|i IH]; intros H.
    - cbn [cumw pat firstn map]. rewrite fsum_nil. ring.
    - cbn [cumw pat]. rewrite IH by lia. rewrite wat_firstn by lia. rewrite map_app, fsum_app.
      cbn [map]. rewrite fsum_cons, fsum_nil. unfold wprob at 3. ring.
  Qed.

  Lemma wprob_nonneg m s w : tables ng ws m -> 0 <= s < num -> In w ws -> fle f0 (wprob s w) = true.
  Proof.
    intros T Hs I. destruct (proj2 (has_state_ex f s) Hs) as [st Hst]. apply In_wat in I. destruct I as [i [Hi <-]].
    pose proof (pat_nonneg ng ws LD m s st (Z.to_nat i) T Hst ltac:(lia)) as P.
    destruct (Z.to_nat i) as [|j] eqn:E; [lia|]. cbn [pat] in P. unfold wprob.
    replace i with (Z.of_nat (S j)) by lia. auto.
  Qed.
  Lemma segsum_nonneg m s b e : tables ng ws m -> 0 <= s < num -> fle f0 (segsum ws (wprob s) b e) = true.
  Proof.
    intros T Hs. apply fsum_nonneg. intros x I. apply in_map_iff in I. destruct I as [w [<- I]].
    apply seg_In in I. eapply wprob_nonneg; eauto.
  Qed.
  Lemma cum_diff m s b e : tables ng ws m -> 0 <= s < num -> 1 <= b <= e -> e <= K ->
    safe_diff (cumw ng ws s (Z.to_nat e)) (cumw ng ws s (Z.to_nat (b - 1))) = segsum ws (wprob s) b e.
  Proof.
    intros T Hs H1 H2. rewrite !cumw_sum by (unfold K in *; lia).
    rewrite (firstn_seg ws b e) by lia. rewrite map_app, fsum_app. fold (segsum ws (wprob s) b e).
    replace (fadd (pf ng s 0) (fadd (fsum (map (wprob s) (firstn (Z.to_nat (b - 1)) ws))) (segsum ws (wprob s) b e)))
      with (fadd (segsum ws (wprob s) b e) (fadd (pf ng s 0) (fsum (map (wprob s) (firstn (Z.to_nat (b - 1)) ws))))) by ring.
    apply safe_diff_add. eapply segsum_nonneg; eauto.
  Qed.

  Lemma cum_at m s w i : tables ng ws m -> weights_ok ng ws s w -> 0 <= i <= K -> cum w i = cumw ng ws s (Z.to_nat i).
  Proof.
    intros T [W1 W2] H. unfold cum. destruct (Z.ltb_spec i 0); [lia|]. rewrite W2; auto. unfold K in *. lia.
  Qed.

  Lemma range_prob_ok m s b e : tables ng ws m -> cinv ng ws m -> 0 <= s < num -> 1 <= b <= e -> e <= K ->
    exists m', range_prob m s b e = Ok (segsum ws (wprob s) b e, m') /\ cinv ng ws m' /\ core m m'.
  Proof.
    intros T C Hs H1 H2. unfold range_prob.
    assert (G : (s <? 0) || (w_num m <? s) || (b <? 1) || (e <? b) || (Z.of_nat (length (wm_order m)) <=? e) = false).
    { unfold w_num, w_fst. rewrite (tb_ng _ _ _ T). fold f. fold num.
      pose proof (K_lt_n m ws (tb_indexed _ _ _ T)) as KN. fold K in KN.
      destruct (Z.ltb_spec s 0); [lia|]. destruct (Z.ltb_spec num s); [lia|]. destruct (Z.ltb_spec b 1); [lia|].
      destruct (Z.ltb_spec e b); [lia|]. destruct (Z.leb_spec (Z.of_nat (length (wm_order m))) e); [lia|]. reflexivity. }
    rewrite G. destruct (ensure_ok ng ws LD AO m s T C Hs) as [m1 [E1 [E2 [E3 E4]]]]. rewrite E1. cbn [bind].
    destruct (cached_get ng ws m1 s E2 E4) as [c [D1 [D2 D3]]]. rewrite D1. cbn [bind].
    exists m1. split; auto. do 2 f_equal.
    pose proof (core_tables _ _ _ _ E3 T) as T1.
    rewrite (cum_at m1 s _ e T1 D3), (cum_at m1 s _ (b - 1) T1 D3) by lia.
    eapply cum_diff; eauto.
  Qed.
  Lemma final_prob_ok m s : tables ng ws m -> cinv ng ws m -> 0 <= s < num ->
    exists m', final_prob m s = Ok (pf ng s 0, m') /\ cinv ng ws m' /\ core m m'.
  Proof.
    intros T C Hs. unfold final_prob.
    assert (G : (s <? 0) || (w_num m <? s) = false).
    { unfold w_num, w_fst. rewrite (tb_ng _ _ _ T). fold f. fold num.
      destruct (Z.ltb_spec s 0); [lia|]. destruct (Z.ltb_spec num s); [lia|]. reflexivity. }
    rewrite G. destruct (ensure_ok ng ws LD AO m s T C Hs) as [m1 [E1 [E2 [E3 E4]]]]. rewrite E1. cbn [bind].
    destruct (cached_get ng ws m1 s E2 E4) as [c [D1 [D2 D3]]]. rewrite D1. cbn [bind].
    exists m1. split; auto. do 2 f_equal. rewrite (cum_at m1 s _ 0 (core_tables _ _ _ _ E3 T) D3) by (unfold K; lia).
    reflexivity.
  Qed.
  Lemma range_probs_ok g s b e ends chars : grp g b e ends chars -> forall m, tables ng ws m -> cinv ng ws m ->
    0 <= s < num -> 1 <= b -> e <= K ->
    exists m', range_probs m s b ends = Ok (gprobs ws (wprob s) b ends, m') /\ cinv ng ws m' /\ core m m'.
  Proof.
    intros G. induction G as [b e L U|b x e ends chars L U N G IH]; intros m T C Hs H1 H2; cbn [range_probs gprobs].
    - destruct (range_prob_ok m s b e T C Hs ltac:(lia) H2) as [m1 [E1 [E2 E3]]]. rewrite E1. cbn [bind].
      exists m1. auto.
    - destruct (range_prob_ok m s b x T C Hs ltac:(lia) ltac:(lia)) as [m1 [E1 [E2 E3]]]. rewrite E1. cbn [bind].
      destruct (IH m1 (core_tables _ _ _ _ E3 T) E2 Hs ltac:(lia) H2) as [m2 [D1 [D2 D3]]]. rewrite D1. cbn [bind].
      exists m2. split; auto. split; auto. eapply core_trans; eauto.
  Qed.

  Lemma backedoff_loop_ok (rk : Z -> nat) m :
    (forall s st g b, has_state f s st -> In (Arc 0 g b) (ps_arcs st) -> (rk b < rk s)%nat) ->
    wm_ng m = ng -> forall fuel s st cost, has_state f s st -> (S (rk s) < fuel)%nat ->
    backedoff_loop fuel m s cost = Ok (fmul cost (pf ng s 0)).
  Proof.
    intros RK EN. induction fuel as [|fuel IH]; intros s st cost Hs L; [lia|]. cbn [backedoff_loop].
    destruct (Z.eqb_spec s (-1)) as [->|_]; [destruct Hs; lia|].
    unfold w_fst. rewrite EN. fold f. rewrite (has_state_get _ _ _ Hs). cbn [bind].
    destruct (feqb (ps_final st) f0) eqn:EF; cbn [negb].
    - apply feqb_eq in EF. destruct (backoff_cases f s st Hs) as [[g [b IB]]|NB].
      + rewrite (backoff_some f CAN s st g b Hs IB). cbn [bind].
        destruct (can_dest _ CAN s st _ Hs IB) as [stb Hb]. cbn [a_next] in Hb.
        destruct (Z.eqb_spec b (-1)) as [->|_]; [destruct Hb; lia|].
        rewrite (IH b stb); auto; [|pose proof (RK s st g b Hs IB); lia].
        f_equal. rewrite (pf_end_backoff ng LD s st g b Hs EF IB). ring.
      + rewrite (backoff_none f s st Hs NB). cbn [bind].
        destruct fuel as [|fuel]; [lia|]. cbn [backedoff_loop]. change (-1 =? -1) with true. cbv iota.
        rewrite (pf_end_none ng LD s st Hs EF NB). f_equal. ring.
    - rewrite (pf_end_here ng LD s st Hs); auto. intros X. apply feqb_eq in X. congruence.
  Qed.
  Lemma backedoff_final_ok m s : wm_ng m = ng -> 0 <= s < num -> backedoff_final m s = Ok (pf ng s 0).
  Proof.
    intros EN Hs. unfold backedoff_final, w_num, w_fst. rewrite EN. fold f. fold num.
    destruct (Z.ltb_spec s 0); [lia|]. destruct (Z.ltb_spec num s); [lia|]. cbn [orb].
    destruct (proj2 (has_state_ex f s) Hs) as [st Hst]. destruct (bounded_rank f CAN) as [rk [R1 R2]].
    pose proof (R1 s st Hst) as L.
    rewrite (backedoff_loop_ok rk m R2 EN (S (length f)) s st f1 Hst ltac:(lia)). f_equal. ring.
  Qed.

  Lemma end_le_1 s : 0 <= s < num -> fle (pf ng s 0) f1 = true.
  Proof.
    intros Hs. destruct (proj2 (has_state_ex f s) Hs) as [st Hst].
    pose proof (proj1 (proj2 (ld_facts ng LD))) as NR.
    pose proof (ld_table _ LD) as TO.
    assert (POS : forall x, In x (map fst (tl (ng_syms ng))) -> 0 < x).
    { intros x I. apply in_map_iff in I. destruct I as [[x' w] [E I]]. simpl in E. subst x'.
      apply (tab_positive _ TO) in I. tauto. }
    assert (M : fadd (pf ng s 0) (fsum (map (pf ng s) (map fst (tl (ng_syms ng))))) = f1).
    { eapply (mass_one f CAN ng eq_refl); eauto.
      - pose proof (tab_labels _ TO) as ND. revert ND. generalize (ng_syms ng) as l. intros [|e t] ND; [constructor|]. simpl in *. inversion ND; auto.
      - intros s1 st1 a H1 I1. apply (ao_labels _ AO s1 st1 a H1 I1). }
    rewrite <- M. apply fle_sub.
    replace (fsub (fadd (pf ng s 0) (fsum (map (pf ng s) (map fst (tl (ng_syms ng)))))) (pf ng s 0))
      with (fsum (map (pf ng s) (map fst (tl (ng_syms ng))))) by ring.
    apply fsum_nonneg. intros y I. apply in_map_iff in I. destruct I as [x [<- I]]. apply POS in I.
    eapply symbol_prob_nonneg; [exact CAN|]. eapply (pf_sym f CAN ng eq_refl); eauto; lia.
  Qed.
  Lemma safe_diff_le (a c : car F) : fle c a = true -> safe_diff a c = fsub a c.
  Proof.
    intros H. unfold safe_diff. destruct (fle a c) eqn:E; auto. rewrite (fle_antisym _ _ E H). ring.
  Qed.

  (** The unnormalized predictions as the code lists them. *)
  Definition after (s : Z) (w : str) : Z :=
    match next_model_state ng s (find_label (ng_syms ng) w) with Ok d => d | _ => -1 end.
  Definition listing (s : Z) (p : str) (b : Z) (ends : list Z) (chars : list str) : list (car F) * list str :=
    let ps := gprobs ws (wprob s) b ends in
    if str_eqb (hd [] chars) [32] then
      let e := pf ng (after s p) 0 in
      if feqb e f0 then (ps, chars)
      else (match ps with [] => [] | q :: ps' => fmul q (fsub f1 e) :: fmul q e :: ps' end, [32] :: [] :: tl chars)
    else match p with
         | [] => if feqb (pf ng s 0) f0 then (ps, chars) else (pf ng s 0 :: ps, [] :: chars)
         | _ => (ps, chars)
         end.

  Lemma char_ends_place m s s0 p : wbase m ws -> wm_ng m = ng -> place_of m ws s (Typing s0 p) ->
    exists b e ends chars, next_char_ends m s = Ok (ends, chars) /\ range ws p b e /\
      grp (nc ws (Z.of_nat (length p))) b e ends chars /\
      implicit_entry (wm_im m) s = Some (s0, Z.of_nat (length p), b, e) /\ 0 <= s0 < num /\ 0 <= s /\
      (s0 =? s) = match p with [] => true | _ => false end.
  Proof.
    intros B EN P. pose proof (wb_im _ _ B) as I. pose proof (wb_indexed _ _ B) as IX.
    assert (EQN : w_num m = num) by (unfold w_num, w_fst; rewrite EN; reflexivity).
    unfold next_char_ends. destruct p as [|c p].
    - destruct P as [-> P]. rewrite EQN in *. destruct (Z.ltb_spec s0 num); [|lia].
      exists 1, K, (wm_first_ends m), (wm_first_chars m). split; auto.
      split; [apply (range_nil m ws IX (wb_spaces _ _ B) (wb_words _ _ B))|].
      split; [apply (ix_groups _ _ IX (wb_words _ _ B))|].
      split; [apply (entry_explicit _ _ _ I); auto|]. rewrite Z.eqb_refl. auto with zarith.
    - destruct (entry_of _ _ _ I s0 (c :: p) s ltac:(discriminate) P) as [b [e [E R]]].
      destruct P as [P1 [P2 _]]. rewrite EQN in *. destruct (Z.ltb_spec s num); [lia|].
      rewrite E. pose proof R as [R1 [R2 _]]. destruct (Z.ltb_spec b 0); [lia|].
      assert (LD' : loaded (wm_ng m)) by (rewrite EN; auto).
      rewrite (word_at_ok m ws LD' IX b) by lia. cbn [bind].
      destruct (implicit_char_ends_ok m ws LD' IX (wb_spaces _ _ B) (c :: p) b e R) as [ends [chars [C1 C2]]].
      rewrite C1. cbn [bind]. exists b, e, ends. eexists. split; [reflexivity|]. split; auto. split; [exact C2|].
      split; auto. split; auto. split; [lia|]. destruct (Z.eqb_spec s0 s); [lia|reflexivity].
  Qed.

  Lemma after_ok m s p : wbase m ws -> wm_ng m = ng -> 0 <= s < num -> In p ws ->
    next_model_state ng s (lab p) = Ok (after s p) /\ 0 <= after s p < num /\
    exists d, symbol_dest f (lab p) s d /\ after s p = match d with Some d' => d' | None => ng_unigram ng end.
  Proof.
    intros B EN Hs I. destruct (proj2 (has_state_ex f s) Hs) as [st Hst].
    pose proof (word_label m ws B p I) as V. unfold wvocab in V. rewrite EN in V. fold lab in V.
    destruct (vocab_valid ng LD _ _ V) as [_ [P _]].
    destruct (next_model_ok f CAN ng eq_refl (lab p) s st ltac:(lia) ltac:(lia) Hst) as [r [D1 D2]].
    unfold after. fold lab. rewrite D2. split; auto. split; [|exists r; auto].
    destruct r as [d|].
    - apply has_state_ex. apply (symbol_dest_valid f (lab p) s d CAN D1).
    - apply (ld_facts ng LD).
  Qed.

  Lemma extract_raw m s s0 p : wbase m ws -> wm_ng m = ng -> cinv ng ws m -> place_of m ws s (Typing s0 p) ->
    exists b e ends chars m', range ws p b e /\ grp (nc ws (Z.of_nat (length p))) b e ends chars /\
      0 <= s0 < num /\ cinv ng ws m' /\ core m m' /\
      w_extract m s =
        (let* normed := softmax_renormalize (fst (listing s0 p b ends chars)) in
         Ok (Some (LmScores (Val f1) (combine (snd (listing s0 p b ends chars)) normed)), m')).
  Proof.
    intros B EN C P. destruct (char_ends_place m s s0 p B EN P) as [b [e [ends [chars [E1 [R [G [E2 [Hs0 [Hs SS]]]]]]]]]].
    assert (T : tables ng ws m) by (constructor; [auto|apply (wb_indexed _ _ B)]).
    destruct (ensure_ok ng ws LD AO m s0 T C Hs0) as [m1 [N1 [N2 [N3 N4]]]].
    destruct (touch_ok ng ws m1 s0 N2 N4) as [m2 [T1 [T2 [T3 _]]]].
    pose proof (core_tables _ _ _ _ N3 T) as TB1. pose proof (core_tables _ _ _ _ T3 TB1) as TB2.
    assert (CO2 : core m m2) by (eapply core_trans; eauto).
    pose proof R as [R1 [R2 R3]].
    set (g := nc ws (Z.of_nat (length p))) in *.
    assert (EC : exists end0 ends' chars', ends = end0 :: ends' /\ chars = [g b] :: chars' /\ b <= end0 <= e).
    { inversion G; subst; do 3 eexists; repeat split; try reflexivity; lia. }
    destruct EC as [end0 [ends' [chars' [-> [-> EB]]]]].
    assert (CK : check_state (wm_ng m) s = s).
    { unfold check_state. destruct (Z.eqb_spec s (-1)); [lia|reflexivity]. }
    unfold w_extract. rewrite CK, E1. cbn [bind].
    unfold im_symbol_begin, im_model_state. rewrite E2. cbn [option_map].
    destruct (Z.ltb_spec b 1); [lia|]. rewrite N1. cbn [bind negb]. rewrite T1. cbn [bind].
    change (vget ([g b] :: chars') 0) with (@Ok str [g b]). cbn [bind]. rewrite str_eqb_single.
    destruct (Z.eqb_spec (g b) 32) as [E32|N32].
    - assert (Wb : wat ws b = p).
      { apply (char_complete ws (wb_spaces _ _ B) p b e R b); [lia|auto]. }
      assert (Ip : In p ws) by (rewrite <- Wb; apply wat_In; lia).
      destruct (after_ok m s0 p B EN Hs0 Ip) as [A1 [A2 A3]].
      rewrite (ix_order _ _ (wb_indexed _ _ B) b) by lia. cbn [bind]. rewrite EN, Wb. fold lab. rewrite A1. cbn [bind].
      rewrite (backedoff_final_ok m2 (after s0 p) (tb_ng _ _ _ TB2) A2). cbn [bind].
      exists b, e, (end0 :: ends'), ([g b] :: chars').
      unfold listing. cbn [hd tl]. rewrite E32, str_eqb_single, Z.eqb_refl.
      destruct (feqb (pf ng (after s0 p) 0) f0) eqn:EF; cbn [negb].
      + destruct (range_probs_ok g s0 b e (end0 :: ends') _ G m2 TB2 T2 Hs0 ltac:(lia) ltac:(lia)) as [m3 [Q1 [Q2 Q3]]].
        rewrite Q1. cbn [bind fst snd]. exists m3. split; auto. rewrite <- E32. split; auto. split; auto. split; auto.
        split; auto. eapply core_trans; eauto.
      + destruct (range_prob_ok m2 s0 b end0 TB2 T2 Hs0 ltac:(lia) ltac:(lia)) as [m3 [Q1 [Q2 Q3]]]. rewrite Q1. cbn [bind].
        assert (REST : exists m4, range_probs m3 s0 (end0 + 1) ends' = Ok (gprobs ws (wprob s0) (end0 + 1) ends', m4) /\
                        cinv ng ws m4 /\ core m3 m4).
        { inversion G as [|? ? ? ? ? L' U' N' G']; subst.
          - cbn [range_probs gprobs]. exists m3. split; auto. split; auto. apply core_refl.
          - eapply range_probs_ok; eauto; try lia. eapply core_tables; eauto. }
        destruct REST as [m4 [S1 [S2 S3]]]. rewrite S1. cbn [bind gprobs fst snd].
        rewrite (safe_diff_le f1 (pf ng (after s0 p) 0)) by (apply end_le_1; auto).
        exists m4. split; auto. rewrite <- E32. split; auto. split; auto. split; auto. split.
        * eapply core_trans; [|exact S3]. eapply core_trans; eauto.
        * reflexivity.
    - destruct (final_prob_ok m2 s0 TB2 T2 Hs0) as [m3 [Q1 [Q2 Q3]]]. rewrite Q1. cbn [bind].
      pose proof (core_tables _ _ _ _ Q3 TB2) as TB3.
      destruct (range_probs_ok g s0 b e (end0 :: ends') _ G m3 TB3 Q2 Hs0 ltac:(lia) ltac:(lia)) as [m4 [S1 [S2 S3]]].
      rewrite S1. cbn [bind]. exists b, e, (end0 :: ends'), ([g b] :: chars'), m4.
      unfold listing. cbn [hd tl]. rewrite str_eqb_single. destruct (Z.eqb_spec (g b) 32); [contradiction|].
      split; auto. split; auto. split; auto. split; auto. split.
      { eapply core_trans; [|exact S3]. eapply core_trans; eauto. }
      rewrite SS. destruct p as [|c p]; cbn [andb].
      + destruct (feqb (pf ng s0 0) f0); reflexivity.
      + reflexivity.
  Qed.
End Scores.
