(** The reply to an update, and the state it is about (C57). *)
From Verif Require Import Base Field LmModel HubModel HubSpec HubProofs HubTrie HubQuery ServerModel ServerEvolve ServerQuery.
Local Open Scope Z_scope.

Section Update.
  Context {F : ofield} {M : Type}.
  Variable ops : comp_ops F M.
  Notation hub := (hub F M).
  Notation trie := (trie ops true false).
  Implicit Types (h : hub).

  (** Requests are histories of hub calls. *)
  Lemma run_app l1 : forall l2 h h1 h2, hub_run ops h l1 = Ok h1 -> hub_run ops h1 l2 = Ok h2 -> hub_run ops h (l1 ++ l2) = Ok h2.
  Proof.
    induction l1 as [|o l1 IH]; cbn [hub_run app]; intros l2 h h1 h2 E1 E2; [injection E1 as <-; auto|].
    apply bind_Ok in E1. destruct E1 as [[r h3] [E3 E1]]. rewrite E3. cbn [bind]. eauto.
  Qed.
  Lemma next_states_run w : forall h s r h', next_states ops h s w = Ok (r, h') -> exists l, hub_run ops h l = Ok h'.
  Proof.
    induction w as [|c w IH]; cbn [next_states]; intros h s r h' E; [injection E as <- <-; exists []; auto|].
    apply bind_Ok in E. destruct E as [[r1 h1] [E1 E]]. apply IH in E. destruct E as [l E]. exists (OpNext s c :: l).
    cbn [hub_run hub_step]. rewrite E1. cbn [bind]. auto.
  Qed.
  Lemma handle_run h q rep h' : handle ops h q = Ok (rep, h') -> exists l, hub_run ops h l = Ok h'.
  Proof.
    intros H. destruct q as [s w|s w|s w n]; cbn [handle] in H.
    - unfold handle_get_next_state in H. apply bind_Ok in H. destruct H as [[r h1] [E1 E]]. injection E as <- <-.
      exists [OpContext w (to_int s)]. cbn [hub_run hub_step]. rewrite E1. reflexivity.
    - unfold handle_get_lm_scores in H. apply bind_Ok in H. destruct H as [[r h1] [E1 E]]. apply bind_Ok in E. destruct E as [[x h2] [E2 E]].
      injection E as <- <-. exists [OpContext w (to_int s); OpExtract r]. cbn [hub_run hub_step]. rewrite E1. cbn [bind hub_run hub_step]. rewrite E2. reflexivity.
    - unfold handle_update_lm_scores in H. apply bind_Ok in H. destruct H as [[r h1] [E1 E]]. apply bind_Ok in E. destruct E as [[ok h2] [E2 E]].
      apply next_states_run in E1. destruct E1 as [l1 E1].
      assert (U : hub_run ops h1 [OpUpdate (to_int s) w n] = Ok h2) by (cbn [hub_run hub_step]; rewrite E2; reflexivity).
      destruct ok; [|injection E as <- <-; eexists; eapply run_app; eauto].
      apply bind_Ok in E. destruct E as [[x h3] [E3 E]]. injection E as <- <-.
      eexists. eapply run_app; [exact E1|]. eapply run_app; [exact U|]. instantiate (1 := [OpExtract r]). cbn [hub_run hub_step]. rewrite E3. reflexivity.
  Qed.
  Lemma handle_all_run qs : forall h rs h', handle_all ops h qs = Ok (rs, h') -> exists l, hub_run ops h l = Ok h'.
  Proof.
    induction qs as [|q qs IH]; cbn [handle_all]; intros h rs h' E; [injection E as <- <-; exists []; auto|].
    apply bind_Ok in E. destruct E as [[x h1] [E1 E]]. apply bind_Ok in E. destruct E as [[xs h2] [E2 E]]. injection E as <- <-.
    apply handle_run in E1. destruct E1 as [l1 E1]. apply IH in E2. destruct E2 as [l2 E2]. eexists. eapply run_app; eauto.
  Qed.

  Lemma next_states_context w : forall h s, hwf h -> (forall c, In c w -> 0 <= c) ->
    next_states ops h s w = hub_context_loop ops h s w.
  Proof.
    induction w as [|c w IH]; intros h s W N; cbn [next_states hub_context_loop]; auto.
    destruct (hub_next ops h s c) as [[r h1]| | |] eqn:E; cbn [bind]; auto.
    destruct (hub_next_wf _ _ _ _ _ _ W E) as (W1 & _ & _ & R). specialize (R (N c (or_introl eq_refl))).
    destruct (Z.ltb_spec r 0); [lia|]. apply IH; auto. intros d Hd. apply N. right; auto.
  Qed.

  (** In a hub that is a trie, a path that exists is walked without changing anything. *)
  Lemma ctx_lookup ctxs h lms0 i x : trie lms0 h ctxs -> 0 <= i < Z.of_nat (length (hs h)) -> ctx_at ctxs i = Some x -> nth_error ctxs (Z.to_nat i) = Some x.
  Proof. intros T R. unfold ctx_at. rewrite (t_len _ _ _ _ _ _ T). replace (_ && _) with true by lia. auto. Qed.

  Lemma loop_app w1 : forall w2 h s r h1, hub_context_loop ops h s w1 = Ok (r, h1) -> hub_context_loop ops h s (w1 ++ w2) = hub_context_loop ops h1 r w2.
  Proof.
    induction w1 as [|c w1 IH]; cbn [hub_context_loop app]; intros w2 h s r h1 E; [injection E as <- <-; auto|].
    apply bind_Ok in E. destruct E as [[r1 h2] [E1 E]]. rewrite E1. cbn [bind]. eauto.
  Qed.

  Lemma trie_walk lms0 h ctxs s x : hwf h -> trie lms0 h ctxs -> 0 <= s < Z.of_nat (length (hs h)) -> nth_error ctxs (Z.to_nat s) = Some x ->
    forall w i, 0 <= i -> nth_error ctxs (Z.to_nat i) = Some (x ++ w) -> hub_context_loop ops h s w = Ok (i, h).
  Proof.
    intros W T Rs Hs. induction w as [|c w IH] using rev_ind; intros i I0 Hi.
    - rewrite app_nil_r in Hi. cbn [hub_context_loop].
      assert (Z.to_nat s = Z.to_nat i); [|f_equal; f_equal; lia].
      pose proof (t_nodup _ _ _ _ _ _ T) as ND. rewrite NoDup_nth_error in ND. apply ND; [eapply nth_error_Some_lt; eauto|congruence].
    - destruct (nth_error (hs h) (Z.to_nat i)) as [t|] eqn:Ht.
      2:{ apply nth_error_None in Ht. apply nth_error_Some_lt in Hi. rewrite (t_len _ _ _ _ _ _ T) in Hi. lia. }
      assert (P0 : (0 < Z.to_nat i)%nat).
      { destruct (Z.to_nat i) eqn:E; [|lia]. rewrite (t_root _ _ _ _ _ _ T) in Hi. injection Hi as Hi. destruct x; [destruct w|]; discriminate. }
      destruct (t_prev _ _ _ _ _ _ T _ _ _ P0 Ht Hi) as (y & ps & Q1 & Q2 & Q3 & Q4 & Q5 & Q6).
      rewrite app_assoc in Q5. apply app_inj_tail in Q5. destruct Q5 as [Ey Ec]. subst y.
      assert (E := IH _ Q1 Q3). rewrite (loop_app _ _ _ _ _ _ E). cbn [hub_context_loop].
      apply nth_error_Some_lt in Q4 as L. unfold hub_next.
      assert (IR : in_range h (h_prev t) = true) by (unfold in_range; lia). rewrite IR.
      assert (V : vgetZ (hs h) (h_prev t) = Ok ps) by (apply vgetZ_Ok; auto). rewrite V. cbn [bind].
      unfold hs_next. rewrite Ec, Q6, Z2Nat.id by auto. replace (_ || _) with true by lia. cbn [bind].
      destruct (Z.ltb_spec i 0); [lia|]. reflexivity.
  Qed.

  Lemma update_reply lms0 h ctxs s w n rep h' :
    hwf h -> trie lms0 h ctxs -> (forall m, In m (h_lms h) -> forall m', c_reach ops true m m' -> query_stable ops m') ->
    0 <= to_int s < Z.of_nat (length (hs h)) -> (forall c, In c w -> 0 <= c) ->
    handle ops h (UpdateLMScoresReq s w n) = Ok (rep, h') ->
    Z.of_nat (length (hs h')) < h_max h -> rep <> InvalidArgument ->
    exists h2, handle ops h' (GetLMScoresReq s w) = Ok (rep, h2).
  Proof.
    intros W T Q R N H L NI. destruct (handle_ok _ _ _ _ _ W H) as (W' & C' & V').
    cbn [handle] in *. unfold handle_update_lm_scores in H. unfold handle_get_lm_scores.
    apply bind_Ok in H. destruct H as [[curr h1] [E1 E]]. apply bind_Ok in E. destruct E as [[ok h2] [E2 E]].
    destruct (next_states_wf _ _ _ _ _ _ W E1) as [W1 C1]. destruct (hub_update_wf _ _ _ _ _ _ _ W1 E2) as [W2 C2].
    destruct ok; [|injection E as <- <-; congruence].
    apply bind_Ok in E. destruct E as [[x h3] [E3 E]]. injection E as <- <-.
    destruct (hub_extract_wf _ _ _ _ _ W2 E3) as (W3 & C3 & SH & _).
    assert (L1 : (length (hs h) <= length (hs h1))%nat) by apply C1. assert (L2 : (length (hs h1) <= length (hs h2))%nat) by apply C2.
    assert (M1 : h_max h1 = h_max h) by apply C1. assert (M2 : h_max h2 = h_max h1) by apply C2. rewrite SH in L.
    rewrite next_states_context in E1 by auto.
    destruct (nth_error ctxs (Z.to_nat (to_int s))) as [y|] eqn:Hy.
    2:{ apply nth_error_None in Hy. rewrite (t_len _ _ _ _ _ _ T) in Hy. lia. }
    destruct (trie_context_loop ops true false w lms0 h ctxs (to_int s) y curr h1) as (c1 & T1 & X1 & P0 & P1); auto; try lia.
    { apply ctx_at_nth; auto; lia. }
    destruct (trie_update ops true false eq_refl _ _ _ _ _ _ _ _ W1 T1 E2) as (c2 & T2 & X2); [lia|].
    pose proof (trie_extract _ _ _ _ _ _ _ _ _ T2 E3) as T3.
    assert (CR : curr < Z.of_nat (length (hs h1))).
    { destruct (hub_context_loop_wf ops _ _ _ _ _ W (proj1 R) E1) as (_ & _ & _ & B). apply B. right. lia. }
    assert (K1 : nth_error c1 (Z.to_nat curr) = Some (y ++ w)) by (eapply ctx_lookup; eauto).
    assert (K2 : nth_error c2 (Z.to_nat curr) = Some (y ++ w)) by (eapply extends_nth; eauto).
    assert (K3 : nth_error c2 (Z.to_nat (to_int s)) = Some y) by (eapply extends_nth; [exact X2|]; eapply extends_nth; eauto).
    unfold hub_context. destruct (Z.ltb_spec (to_int s) 0); [lia|].
    assert (TW : hub_context_loop ops h3 (to_int s) w = Ok (curr, h3)).
    { eapply (trie_walk lms0 h3 c2 (to_int s) y W3 T3); auto. rewrite SH; lia. }
    rewrite TW. cbn [bind].
    assert (Q2 : Forall (query_stable ops) (h_lms h2)).
    { assert (V2 : Forall2 (c_reach ops true) (h_lms h) (h_lms h2)).
      { eapply evolve_trans; [eapply context_evolve; exact E1|eapply update_evolve; [|exact E2]; auto]. }
      clear - V2 Q. induction V2; constructor; [eapply Q; [left; reflexivity|auto]|]. apply IHV2. intros m Hm. apply Q. right; auto. }
    destruct (ext_extract ops h2 _ _ _ _ (ext_refl _ _) E3) as [EX _].
    pose proof (pair_extract ops h2 W2 Q2 h2 h3 curr curr (ext_refl _ _) EX) as PE. 
    rewrite (ans_Ok _ _ _ E3) in PE. destruct (ans_inv _ _ (PE ltac:(constructor; lia))) as [h4 E4]. rewrite E4. cbn [bind]. eauto.
  Qed.
End Update.
