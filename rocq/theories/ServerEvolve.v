(** What every request does to the hub: it stays well formed, and the components evolve by calls. *)
From Verif Require Import Base Field LmModel HubModel HubSpec HubProofs HubTrie ServerModel.
Local Open Scope Z_scope.

Section Evolve.
  Context {F : ofield} {M : Type}.
  Variable ops : comp_ops F M.
  Notation hub := (hub F M).
  Variable learning : bool.
  Notation evolve := (Forall2 (c_reach ops learning)).
  Implicit Types (h : hub).

  Local Notation er := (evolve_refl ops learning).
  Local Notation et := (evolve_trans ops learning).

  Lemma update_hub_state_lms h idx ms p c h' : update_hub_state h idx ms p c = Ok h' -> h_lms h' = h_lms h.
  Proof.
    unfold update_hub_state. intros E. apply bind_Ok in E. destruct E as [old [_ E]]. destruct (negb _); [discriminate|].
    apply bind_Ok in E. destruct E as [l [_ E]]. injection E as <-. reflexivity.
  Qed.
  Lemma bayes_evolve h i h' : update_bayesian_history ops h i = Ok h' -> evolve (h_lms h) (h_lms h').
  Proof.
    unfold update_bayesian_history. destruct (_ && _); [|intros [= <-]; apply er].
    intros E. apply bind_Ok in E. destruct E as [s [_ E]]. destruct (0 <=? h_prev s); [|injection E as <-; apply er].
    apply bind_Ok in E. destruct E as [ps [_ E]]. apply bind_Ok in E. destruct E as [[pr l] [E1 E]]. injection E as <-.
    cbn. eapply comps_score_evolve; eauto.
  Qed.
  Lemma assign_evolve h ms p c r h' : assign_new_hub_state ops h ms p c = Ok (r, h') -> evolve (h_lms h) (h_lms h').
  Proof.
    unfold assign_new_hub_state. intros E. apply bind_Ok in E. destruct E as [[idx h1] [E1 E]].
    assert (L1 : h_lms h1 = h_lms h).
    { destruct (h_max h <=? _); [|injection E1 as <- <-; reflexivity].
      apply bind_Ok in E1. destruct E1 as [[i2 h2] [E2 E1]]. apply bind_Ok in E1. destruct E1 as [h3 [E3 E1]]. injection E1 as <- <-.
      apply update_hub_state_lms in E3. rewrite E3. destruct (h_max h <=? _); [|injection E2 as <- <-; reflexivity].
      apply bind_Ok in E2. destruct E2 as [h4 [E4 E2]]. injection E2 as <- <-. unfold initialize_start_hub_state in E4.
      apply update_hub_state_lms in E4. auto. }
    apply bind_Ok in E. destruct E as [ps [_ E]]. apply bind_Ok in E. destruct E as [h4 [E4 E]]. injection E as <- <-.
    apply bayes_evolve in E4. cbn in E4. rewrite L1 in E4. auto.
  Qed.
  Lemma next_evolve h s c r h' : hub_next ops h s c = Ok (r, h') -> evolve (h_lms h) (h_lms h').
  Proof.
    unfold hub_next. intros E. apply bind_Ok in E. destruct E as [x [_ E]]. destruct (_ || _); [injection E as <- <-; apply er|].
    apply bind_Ok in E. destruct E as [[st l] [E1 E]]. assert (V := comps_next_evolve ops learning _ _ _ _ _ _ E1).
    destruct (assign_new_hub_state _ _ _ _ _) as [[r2 h2]| | |] eqn:EA; try discriminate; injection E as <- <-; auto.
    apply assign_evolve in EA. cbn in EA. eapply et; eauto.
  Qed.
  Lemma context_evolve ctx : forall h s r h', hub_context_loop ops h s ctx = Ok (r, h') -> evolve (h_lms h) (h_lms h').
  Proof.
    induction ctx as [|c ctx IH]; cbn [hub_context_loop]; intros h s r h' E; [injection E as <- <-; apply er|].
    apply bind_Ok in E. destruct E as [[r1 h1] [E1 E]]. eapply et; [eapply next_evolve; eauto|eauto].
  Qed.
  Lemma extract_evolve h s r h' : hub_extract ops h s = Ok (r, h') -> evolve (h_lms h) (h_lms h').
  Proof.
    unfold hub_extract. destruct (negb _); [intros [= <- <-]; apply er|]. intros E. apply bind_Ok in E. destruct E as [x [_ E]].
    destruct (_ <? 2)%nat.
    - destruct (h_lms h) as [|m t] eqn:L; [discriminate|]. apply bind_Ok in E. destruct E as [[y m'] [E1 E]]. injection E as <- <-.
      cbn. constructor; [|apply er]. apply reach_one. eapply step_extract; eauto.
    - apply bind_Ok in E. destruct E as [ws [_ E]]. apply bind_Ok in E. destruct E as [[y l] [E1 E]]. injection E as <- <-.
      cbn. eapply mix_loop_evolve; eauto.
  Qed.
  Lemma ensure_evolve w : forall h s h', ensure_states ops h s w = Ok h' -> evolve (h_lms h) (h_lms h').
  Proof.
    induction w as [|c w IH]; cbn [ensure_states]; intros h s h' E; [injection E as <-; apply er|].
    apply bind_Ok in E. destruct E as [[r1 h1] [E1 E]]. eapply et; [eapply next_evolve; eauto|eauto].
  Qed.
  Lemma refresh_next_evolve l : forall h h', refresh_next ops h l = Ok h' -> evolve (h_lms h) (h_lms h').
  Proof.
    induction l as [|[c i] l IH]; cbn [refresh_next]; intros h h' E; [injection E as <-; apply er|].
    apply bind_Ok in E. destruct E as [h1 [E1 E]]. eapply et; [eapply bayes_evolve; eauto|eauto].
  Qed.
  Lemma refresh_evolve w : forall h s h', refresh_bayes ops h s w = Ok h' -> evolve (h_lms h) (h_lms h').
  Proof.
    induction w as [|c w IH]; cbn [refresh_bayes]; intros h s h' E; [injection E as <-; apply er|].
    apply bind_Ok in E. destruct E as [x [_ E]]. apply bind_Ok in E. destruct E as [h1 [E1 E]]. apply bind_Ok in E. destruct E as [[r2 h2] [E2 E]].
    eapply et; [eapply refresh_next_evolve; eauto|]. eapply et; [eapply next_evolve; eauto|eauto].
  Qed.
  Lemma verify_evolve w : forall h s r h', verify_states ops h s w = Ok (r, h') -> evolve (h_lms h) (h_lms h').
  Proof.
    induction w as [|c w IH]; cbn [verify_states]; intros h s r h' E; [injection E as <- <-; apply er|].
    apply bind_Ok in E. destruct E as [x [_ E]]. destruct (_ <? 0); [injection E as <- <-; apply er|].
    apply bind_Ok in E. destruct E as [[st l] [E1 E]]. assert (V := comps_next_evolve ops learning _ _ _ _ _ _ E1).
    apply bind_Ok in E. destruct E as [ns [_ E]]. destruct (_ && _); [|injection E as <- <-; auto].
    apply IH in E. eapply et; eauto.
  Qed.
  Lemma update_evolve h s w n r h' : learning = true \/ in_range h s = false -> hub_update ops h s w n = Ok (r, h') -> evolve (h_lms h) (h_lms h').
  Proof.
    unfold hub_update. intros HL E. apply bind_Ok in E. destruct E as [h1 [E1 E]]. apply ensure_evolve in E1.
    apply bind_Ok in E. destruct E as [h2 [E2 E]].
    assert (V2 : evolve (h_lms h1) (h_lms h2)) by (destruct (0 <? h_bayes h)%nat; [eapply refresh_evolve; eauto|injection E2 as <-; apply er]).
    assert (V := et _ _ _ E1 V2). destruct (in_range h s); [|injection E as <- <-; auto].
    assert (TL : learning = true) by (destruct HL; [auto|discriminate]).
    apply bind_Ok in E. destruct E as [x [_ E]]. apply bind_Ok in E. destruct E as [[ok l] [E3 E]].
    apply (update_comps_evolve ops learning TL) in E3. destruct ok; [|injection E as <- <-; eapply et; eauto].
    apply verify_evolve in E. eapply et; [exact V|]. eapply et; [exact E3|exact E].
  Qed.
  Lemma next_states_evolve w : forall h s r h', next_states ops h s w = Ok (r, h') -> evolve (h_lms h) (h_lms h').
  Proof.
    induction w as [|c w IH]; cbn [next_states]; intros h s r h' E; [injection E as <- <-; apply er|].
    apply bind_Ok in E. destruct E as [[r1 h1] [E1 E]]. eapply et; [eapply next_evolve; eauto|eauto].
  Qed.
  Lemma next_states_wf w : forall h s r h', hwf h -> next_states ops h s w = Ok (r, h') -> hwf h' /\ same_config h h'.
  Proof.
    induction w as [|c w IH]; cbn [next_states]; intros h s r h' W E; [injection E as <- <-; auto using same_config_refl|].
    apply bind_Ok in E. destruct E as [[r1 h1] [E1 E]]. destruct (hub_next_wf _ _ _ _ _ _ W E1) as [W1 [C1 _]].
    destruct (IH _ _ _ _ W1 E) as [W2 C2]. split; auto. eapply same_config_trans; eauto.
  Qed.

  Lemma update_refused h s w n r h' : in_range h s = false -> hub_update ops h s w n = Ok (r, h') -> r = false.
  Proof.
    unfold hub_update. intros HL E. apply bind_Ok in E. destruct E as [h1 [E1 E]]. apply bind_Ok in E. destruct E as [h2 [E2 E]].
    rewrite HL in E. injection E as <- _. auto.
  Qed.

  (** A walk makes at most one state for each symbol. *)
  Lemma reset_prevs_len l : forall (st st' : list (hstate F)), reset_prevs st l = Ok st' -> length st' = length st.
  Proof.
    induction l as [|[c i] l IH]; cbn [reset_prevs]; intros st st' E; [injection E as <-; auto|].
    apply bind_Ok in E. destruct E as [x [_ E]]. apply IH in E. rewrite upd_length in E. auto.
  Qed.
  Lemma update_hub_state_len h idx ms p c h' : update_hub_state h idx ms p c = Ok h' -> length (hs h') = length (hs h).
  Proof.
    unfold update_hub_state. intros E. apply bind_Ok in E. destruct E as [old [_ E]]. destruct (negb _); [discriminate|].
    apply bind_Ok in E. destruct E as [l [E1 E]]. injection E as <-. apply reset_prevs_len in E1. rewrite upd_length in E1. auto.
  Qed.
  Lemma next_len h s c r h' : hub_next ops h s c = Ok (r, h') -> (length (hs h') <= length (hs h) + 1)%nat.
  Proof.
    unfold hub_next. intros E. apply bind_Ok in E. destruct E as [x [_ E]]. destruct (_ || _); [injection E as <- <-; lia|].
    apply bind_Ok in E. destruct E as [[st l] [E1 E]].
    destruct (assign_new_hub_state _ _ _ _ _) as [[r2 h2]| | |] eqn:EA; try discriminate; injection E as <- <-; [|cbn; lia].
    unfold assign_new_hub_state in EA. apply bind_Ok in EA. destruct EA as [[idx h3] [E2 EA]].
    assert (L : (length (hs h3) <= length (hs h) + 1)%nat).
    { destruct (h_max _ <=? _); [|injection E2 as <- <-; cbn; rewrite app_length; cbn; lia].
      apply bind_Ok in E2. destruct E2 as [[i4 h4] [E4 E2]]. apply bind_Ok in E2. destruct E2 as [h5 [E5 E2]]. injection E2 as <- <-.
      apply update_hub_state_len in E5. rewrite E5. destruct (h_max _ <=? _); [|injection E4 as <- <-; cbn; lia].
      apply bind_Ok in E4. destruct E4 as [h6 [E6 E4]]. injection E4 as <- <-. unfold initialize_start_hub_state in E6.
      apply update_hub_state_len in E6. cbn in E6. lia. }
    apply bind_Ok in EA. destruct EA as [ps [_ EA]]. apply bind_Ok in EA. destruct EA as [h7 [E7 EA]]. injection EA as <- <-.
    unfold update_bayesian_history in E7. destruct (_ && _); [|injection E7 as <-; cbn; rewrite upd_length; auto].
    apply bind_Ok in E7. destruct E7 as [y [_ E7]]. destruct (0 <=? h_prev y); [|injection E7 as <-; cbn; rewrite upd_length; auto].
    apply bind_Ok in E7. destruct E7 as [z [_ E7]]. apply bind_Ok in E7. destruct E7 as [[pr l7] [_ E7]]. injection E7 as <-.
    cbn. rewrite !upd_length. auto.
  Qed.
  Lemma next_states_len w : forall h s r h', next_states ops h s w = Ok (r, h') -> (length (hs h') <= length (hs h) + length w)%nat.
  Proof.
    induction w as [|c w IH]; cbn [next_states length]; intros h s r h' E; [injection E as <- <-; lia|].
    apply bind_Ok in E. destruct E as [[r1 h1] [E1 E]]. apply next_len in E1. apply IH in E. lia.
  Qed.
End Evolve.

Section Requests.
  Context {F : ofield} {M : Type}.
  Variable ops : comp_ops F M.
  Notation hub := (hub F M).
  Notation evolve := (Forall2 (c_reach ops true)).
  Implicit Types (h : hub).
  Local Notation er := (evolve_refl ops true).
  Local Notation et := (evolve_trans ops true).

  (** Any request. *)
  Lemma handle_ok h q rep h' : hwf h -> handle ops h q = Ok (rep, h') ->
    hwf h' /\ same_config h h' /\ evolve (h_lms h) (h_lms h').
  Proof.
    intros W H. destruct q as [s w|s w|s w n]; cbn [handle] in H.
    - unfold handle_get_next_state in H. apply bind_Ok in H. destruct H as [[r h1] [E1 E]]. injection E as <- <-.
      destruct (hub_context_wf _ _ _ _ _ _ W E1) as (A & B & _). split; auto. split; auto. eapply context_evolve; exact E1.
    - unfold handle_get_lm_scores in H. apply bind_Ok in H. destruct H as [[r h1] [E1 E]]. apply bind_Ok in E. destruct E as [[x h2] [E2 E]].
      injection E as <- <-. destruct (hub_context_wf _ _ _ _ _ _ W E1) as (A & B & _).
      destruct (hub_extract_wf _ _ _ _ _ A E2) as (C & D & _). split; auto. split; [eapply same_config_trans; eauto|].
      eapply et; [eapply context_evolve; exact E1|eapply extract_evolve; eauto].
    - unfold handle_update_lm_scores in H. apply bind_Ok in H. destruct H as [[r h1] [E1 E]]. apply bind_Ok in E. destruct E as [[ok h2] [E2 E]].
      destruct (next_states_wf _ _ _ _ _ _ W E1) as [W1 C1]. destruct (hub_update_wf _ _ _ _ _ _ _ W1 E2) as [W2 C2].
      assert (V : evolve (h_lms h) (h_lms h2)) by (eapply et; [eapply next_states_evolve; eauto|eapply update_evolve; [|eauto]; auto]).
      assert (C := same_config_trans _ _ _ C1 C2).
      destruct ok; [|injection E as <- <-; auto]. apply bind_Ok in E. destruct E as [[x h3] [E3 E]]. injection E as <- <-.
      destruct (hub_extract_wf _ _ _ _ _ W2 E3) as (W3 & C3 & _). split; auto. split; [eapply same_config_trans; eauto|].
      eapply et; [exact V|eapply extract_evolve; eauto].
  Qed.
  Lemma handle_all_ok l : forall h rs h', hwf h -> handle_all ops h l = Ok (rs, h') ->
    hwf h' /\ same_config h h' /\ evolve (h_lms h) (h_lms h').
  Proof.
    induction l as [|q l IH]; cbn [handle_all]; intros h rs h' W E; [injection E as <- <-; auto using same_config_refl, er|].
    apply bind_Ok in E. destruct E as [[x h1] [E1 E]]. apply bind_Ok in E. destruct E as [[xs h2] [E2 E]]. injection E as <- <-.
    destruct (handle_ok _ _ _ _ W E1) as (W1 & C1 & V1). destruct (IH _ _ _ W1 E2) as (W2 & C2 & V2).
    split; auto. split; [eapply same_config_trans; eauto|eapply et; eauto].
  Qed.
End Requests.
