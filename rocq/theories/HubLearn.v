(** Proofs about HubModel.v: what UpdateLMCounts tells the components. *)
From Verif Require Import Base Field LmModel HubModel HubSpec HubProofs HubTrie.
Local Open Scope Z_scope.

Section Learn.
  Context {F : ofield} {M : Type}.
  Variable ops : comp_ops F M.
  Notation hub := (hub F M).
  Notation queried := (Forall2 (c_reach ops false)).
  Implicit Types h : hub.

  Definition keeps_models h h' : Prop :=
    queried (h_lms h) (h_lms h') /\
    forall i s, nth_error (hs h) i = Some s ->
      exists s', nth_error (hs h') i = Some s' /\ h_models s' = h_models s.

  Lemma keeps_refl h : keeps_models h h.
  Proof. split; [apply evolve_refl|eauto]. Qed.

  Lemma keeps_trans h1 h2 h3 : keeps_models h1 h2 -> keeps_models h2 h3 -> keeps_models h1 h3.
  Proof.
    intros [A1 A2] [B1 B2]. split; [eapply evolve_trans; eauto|].
    intros i s Hs. destruct (A2 _ _ Hs) as (s' & H1 & H2). destruct (B2 _ _ H1) as (s'' & H3 & H4).
    exists s''. split; auto. congruence.
  Qed.

  Lemma keeps_bayes h i h' : update_bayesian_history ops h i = Ok h' -> keeps_models h h'.
  Proof.
    unfold update_bayesian_history. destruct (_ && _); [|intros [= <-]; apply keeps_refl].
    intros E. apply bind_Ok in E. destruct E as [s [E1 E]].
    destruct (0 <=? h_prev s); [|injection E as <-; apply keeps_refl].
    apply bind_Ok in E. destruct E as [ps [E2 E]].
    apply bind_Ok in E. destruct E as [[probs lms'] [E3 E]]. injection E as <-.
    split; [eapply comps_score_evolve; eauto|]. cbn [set_lms set_hs hs].
    apply vgetZ_Ok in E1. destruct E1 as [_ E1].
    intros j t Ht. rewrite nth_error_upd. destruct (Nat.eqb_spec (Z.to_nat i) j) as [<-|]; simpl; eauto.
    destruct (_ <? _)%nat; eauto. eexists; split; eauto. simpl. congruence.
  Qed.

  Notation trie := (trie ops true false).

  Lemma keeps_next lms0 h ctxs s c r h' :
    hwf h -> trie lms0 h ctxs -> hub_next ops h s c = Ok (r, h') ->
    Z.of_nat (length (hs h')) < h_max h -> keeps_models h h'.
  Proof.
    intros W T E Hsz.
    destruct (hub_next_cases _ _ _ _ _ _ _ _ _ _ W T E Hsz)
      as (st & x & w & Hw & Hx & Hst & Hst0 & [(-> & -> & D)|(Hc & Ea & -> & states & lms' & E2 & E4)]).
    - apply keeps_refl.
    - apply keeps_bayes in E4. eapply keeps_trans; [|exact E4].
      split; [eapply comps_next_evolve; exact E2|]. unfold grown; cbn [hs].
      intros i s0 Hs0. rewrite nth_error_upd, app_length; simpl.
      assert (Hl := nth_error_Some_lt _ _ _ _ Hs0).
      destruct (Nat.eqb_spec (Z.to_nat st) i) as [<-|]; simpl.
      + destruct (Nat.ltb_spec (Z.to_nat st) (length (hs h) + 1)); [|lia].
        eexists; split; eauto. simpl. congruence.
      + rewrite nth_error_app1 by auto. eauto.
  Qed.

  Lemma keeps_ensure syms : forall lms0 h ctxs s h',
    hwf h -> trie lms0 h ctxs -> ensure_states ops h s syms = Ok h' ->
    Z.of_nat (length (hs h')) < h_max h -> keeps_models h h'.
  Proof.
    induction syms as [|c t IH]; intros lms0 h ctxs s h' W T; simpl.
    - intros [= <-] _. apply keeps_refl.
    - intros E Hsz. apply bind_Ok in E. destruct E as [[s1 h1] [E1 E2]].
      destruct (hub_next_wf _ _ _ _ _ _ W E1) as [W1 [C1 _]].
      destruct (ensure_states_wf _ _ _ _ _ W1 E2) as [W2 C2].
      assert (Hsz1 := size_mono _ _ _ C2 Hsz).
      destruct (trie_hub_next _ _ _ _ _ _ _ _ _ _ W T E1 Hsz1) as (ctxs1 & w' & T1 & X1 & _).
      assert (Hm : h_max h1 = h_max h) by apply C1.
      eapply keeps_trans; [eapply keeps_next; eauto|]. eapply IH; eauto. lia.
  Qed.

  Lemma keeps_refresh_next nexts : forall h h',
    refresh_next ops h nexts = Ok h' -> keeps_models h h'.
  Proof.
    induction nexts as [|[c i] t IH]; intros h h'; simpl.
    - intros [= <-]. apply keeps_refl.
    - intros E. apply bind_Ok in E. destruct E as [h1 [E1 E2]].
      eapply keeps_trans; [eapply keeps_bayes; eauto|eauto].
  Qed.

  Lemma keeps_refresh syms : forall lms0 h ctxs s h',
    hwf h -> trie lms0 h ctxs -> refresh_bayes ops h s syms = Ok h' ->
    Z.of_nat (length (hs h')) < h_max h -> keeps_models h h'.
  Proof.
    induction syms as [|c t IH]; intros lms0 h ctxs s h' W T; simpl.
    - intros [= <-] _. apply keeps_refl.
    - intros E Hsz. apply bind_Ok in E. destruct E as [x [E0 E]].
      apply bind_Ok in E. destruct E as [h0 [E1 E]].
      apply bind_Ok in E. destruct E as [[s1 h1] [E2 E]].
      destruct (refresh_next_wf _ _ _ _ W E1) as [W0 [C0 L0]].
      assert (T0 := trie_refresh_next _ _ _ _ _ _ _ _ T E1).
      destruct (hub_next_wf _ _ _ _ _ _ W0 E2) as [W1 [C1 _]].
      destruct (refresh_bayes_wf _ _ _ _ _ W1 E) as [W2 C2].
      assert (Hsz1 := size_mono _ _ _ C2 Hsz).
      assert (M0 : h_max h0 = h_max h) by apply C0. assert (M1 : h_max h1 = h_max h0) by apply C1.
      assert (Hsz1' : Z.of_nat (length (hs h1)) < h_max h0) by lia.
      destruct (trie_hub_next _ _ _ _ _ _ _ _ _ _ W0 T0 E2 Hsz1') as (ctxs1 & w' & T1 & X1 & _).
      eapply keeps_trans; [eapply keeps_refresh_next; eauto|].
      eapply keeps_trans; [eapply keeps_next; eauto|]. eapply IH; eauto. lia.
  Qed.

  Lemma update_comps_told (s : hstate F) ws : forall idx lms syms n r lms',
    length (h_models s) = (idx + length lms)%nat ->
    update_comps ops s idx ws lms syms n = Ok (r, lms') ->
    told ops syms n (firstn (length ws) (skipn idx (h_models s))) lms lms' r.
  Proof.
    induction ws as [|w ws IH]; intros idx lms syms n r lms' Hl; simpl.
    - intros [= <- <-]. constructor.
    - destruct lms as [|m t]; [discriminate|]. simpl in Hl. intros E.
      apply bind_Ok in E. destruct E as [[ok m'] [E1 E]].
      destruct (nth_error (h_models s) idx) as [z|] eqn:Ez.
      2:{ apply nth_error_None in Ez. lia. }
      assert (Es : skipn idx (h_models s) = z :: skipn (S idx) (h_models s)).
      { clear -Ez. revert idx Ez. induction (h_models s) as [|a l IHl]; intros [|i]; simpl; try discriminate.
        - intros [= ->]; auto.
        - intros H. rewrite (IHl _ H). reflexivity. }
      unfold hs_model in E1. rewrite Ez in E1. rewrite Es.
      destruct ok.
      + apply bind_Ok in E. destruct E as [[r2 t'] [E2 E]]. injection E as <- <-.
        apply told_ok; auto. apply IH; auto. lia.
      + injection E as <- <-. apply told_refused; auto.
  Qed.

  Lemma verify_queried syms : forall h s r h',
    verify_states ops h s syms = Ok (r, h') -> queried (h_lms h) (h_lms h').
  Proof. intros h s r h' E. eapply (verify_same_hist ops false); eauto. Qed.

  Lemma update_told lms0 h ctxs s syms n r h' :
    hwf h -> trie lms0 h ctxs -> in_range h s = true -> hub_update ops h s syms n = Ok (r, h') ->
    Z.of_nat (length (hs h')) < h_max h ->
    exists st lms1 lms2, vgetZ (hs h) s = Ok st /\ queried (h_lms h) lms1 /\
      told ops syms n (firstn (length (h_weights h)) (h_models st)) lms1 lms2 r /\
      queried lms2 (h_lms h').
  Proof.
    intros W T Er E Hsz. unfold hub_update in E. rewrite Er in E.
    apply bind_Ok in E. destruct E as [h1 [E1 E]].
    destruct (ensure_states_wf _ _ _ _ _ W E1) as [W1 C1].
    apply bind_Ok in E. destruct E as [h2 [E2 E]].
    assert (WC2 : hwf h2 /\ same_config h1 h2).
    { destruct (0 <? h_bayes h)%nat.
      - eapply refresh_bayes_wf; eauto.
      - injection E2 as <-. auto using same_config_refl. }
    destruct WC2 as [W2 C2].
    assert (M1 : h_max h1 = h_max h) by apply C1. assert (M2 : h_max h2 = h_max h1) by apply C2.
    assert (S12 : (length (hs h1) <= length (hs h2))%nat) by apply C2.
    apply bind_Ok in E. destruct E as [x [E3 E]].
    apply bind_Ok in E. destruct E as [[ok1 lms'] [E4 E]].
    assert (L4 := update_comps_len _ _ _ _ _ _ _ _ _ E4). assert (W3 := set_lms_wf h2 lms' L4 W2).
    assert (S2 : (length (hs h2) <= length (hs h'))%nat).
    { destruct ok1; [|injection E as _ <-; auto].
      destruct (verify_states_wf _ _ _ _ _ _ W3 E) as [_ [_ L]]. rewrite L; auto. }
    assert (Hsz1 : Z.of_nat (length (hs h1)) < h_max h) by lia.
    assert (K1 := keeps_ensure _ _ _ _ _ _ W T E1 Hsz1).
    destruct (trie_ensure _ _ _ _ _ _ _ _ _ W T E1 Hsz1) as (ctxs1 & T1 & X1).
    assert (K2 : keeps_models h1 h2 /\ exists ctxs2, trie lms0 h2 ctxs2).
    { destruct (0 <? h_bayes h)%nat.
      - split; [eapply keeps_refresh; [exact W1|exact T1|exact E2|lia]|].
        destruct (trie_refresh _ _ _ _ _ _ _ _ _ W1 T1 E2) as (ctxs2 & T2 & _); [lia|eauto].
      - injection E2 as <-. split; [apply keeps_refl|eauto]. }
    destruct K2 as [K2 [ctxs2 T2]]. destruct (keeps_trans _ _ _ K1 K2) as [Q K].
    assert (Hr : 0 <= s < Z.of_nat (length (hs h))) by (unfold in_range in Er; lia).
    destruct (vgetZ_range _ (hs h) s Hr) as [st Est]. exists st, (h_lms h2), lms'.
    split; auto. split; auto.
    assert (Em : h_models x = h_models st).
    { apply vgetZ_Ok in Est. destruct Est as [_ Est]. apply vgetZ_Ok in E3. destruct E3 as [_ E3].
      destruct (K _ _ Est) as (s' & A & B). congruence. }
    assert (Ew : h_weights h2 = h_weights h).
    { destruct C1 as (_ & B & _). destruct C2 as (_ & D & _). congruence. }
    assert (Ht : told ops syms n (firstn (length (h_weights h)) (h_models st)) (h_lms h2) lms' ok1).
    { rewrite <- Em, <- Ew. apply (update_comps_told x _ 0); auto.
      rewrite (ok_models _ _ _ _ (wf_states _ W2 _ (vgetZ_In _ _ _ _ E3))). auto. }
    destruct ok1.
    - assert (Ev4 := update_comps_evolve ops true eq_refl _ _ _ _ _ _ _ _ E4).
      assert (T3 := trie_set_lms _ _ _ _ _ _ _ T2 Ev4).
      destruct (trie_verify _ _ _ _ _ _ _ _ _ _ W3 T3 (proj1 Hr) E) as [_ ->].
      split; auto. apply verify_queried in E. exact E.
    - injection E as <- <-. split; auto. simpl. apply evolve_refl.
  Qed.
End Learn.
