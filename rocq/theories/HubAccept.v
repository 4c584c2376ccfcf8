(** Requests about states the hub has: they are answered with scores, not with an error. *)
From Verif Require Import Base Field LmModel HubModel HubSpec HubProofs HubTrie HubMix HubLive HubLive2 HubDist.
From Verif Require Import ServerModel ServerEvolve ServerQuery ServerUpdate.
Local Open Scope Z_scope.

(** Components that never refuse to tell scores or to learn. *)
Record comps_accept {F : ofield} {M : Type} (ops : comp_ops F M) (Inv : Z -> M -> Prop) (ok : M -> Z -> Prop) : Prop := {
  ca_extract : forall b m s r m', Inv b m -> ok m s -> c_extract ops m s = Ok (r, m') -> exists sc, r = Some sc;
  ca_update : forall b m s w n r m', Inv b m -> ok m s -> learn_cost w n <= b -> c_update ops m s w n = Ok (r, m') -> r = true
}.

Section Accept.
  Context {F : ofield} {M : Type}.
  Variable ops : comp_ops F M.
  Variable Inv : Z -> M -> Prop.
  Variable ok : M -> Z -> Prop.
  Hypothesis A : comps_answer ops Inv ok.
  Hypothesis AC : comps_accept ops Inv ok.
  Notation hub := (hub F M).
  Implicit Types (h : hub).

  Lemma mix_loop_some b (s : hstate F) ws : forall idx lms norm acc r lms', lms_fine Inv b lms -> Forall2 ok lms (skipn idx (h_models s)) ->
    mix_loop ops s idx ws lms norm acc = Ok (r, lms') -> exists p, r = Some p.
  Proof.
    induction ws as [|w ws IH]; intros idx lms norm acc r lms' H K E; cbn [mix_loop] in E.
    - injection E as <- _. eauto.
    - destruct lms as [|m t]; [discriminate|]. inversion H as [|? ? Hm Ht]; subst.
      inversion K as [|? x ? xs Kx Kt E1 E2]; subst. symmetry in E2. apply skipn_cons in E2. destruct E2 as [E2 E3].
      assert (Ex : hs_model s idx = x) by (unfold hs_model; rewrite E2; auto). rewrite Ex in E.
      apply bind_Ok in E. destruct E as [[y m'] [E4 E]]. destruct (ca_extract _ _ _ AC b m x y m' Hm Kx E4) as [sc ->].
      apply bind_Ok in E. destruct E as [[z t'] [E5 E]]. injection E as <- _.
      eapply (IH (S idx) t); eauto. rewrite E3. auto.
  Qed.
  Lemma extract_some b h s r h' : hlive Inv ok b h -> in_range h s = true -> hub_extract ops h s = Ok (r, h') -> exists sc, r = Some sc.
  Proof.
    intros H Er E. unfold hub_extract in E. rewrite Er in E. cbn [negb] in E.
    apply bind_Ok in E. destruct E as [st [E1 E]]. destruct (hl_live _ _ _ _ H _ (vgetZ_In _ _ _ _ E1)) as [L _].
    destruct (_ <? 2)%nat.
    - pose proof (hl_fine _ _ _ _ H) as Hf. destruct (h_lms h) as [|m t] eqn:El; [discriminate|]. apply bind_Ok in E. destruct E as [[x m'] [E2 E]].
      inversion Hf; subst. inversion L as [|? y ? ys Ky Kt EE1 EE2]; subst.
      assert (Ex : hs_model st 0 = y) by (unfold hs_model; rewrite <- EE2; auto). rewrite Ex in E2.
      destruct (ca_extract _ _ _ AC b m y x m') as [sc ->]; auto. injection E as <- _. cbn [option_map]. eauto.
    - apply bind_Ok in E. destruct E as [ws [E2 E]]. apply bind_Ok in E. destruct E as [[x lms'] [E3 E]].
      destruct (mix_loop_some b st ws 0 _ _ _ _ _ (hl_fine _ _ _ _ H) L E3) as [[nm ac] ->]. injection E as <- _. cbn [option_map]. eauto.
  Qed.
  Lemma update_comps_true b (s : hstate F) ws : forall idx lms w n r lms', lms_fine Inv b lms -> Forall2 ok lms (skipn idx (h_models s)) ->
    learn_cost w n <= b -> update_comps ops s idx ws lms w n = Ok (r, lms') -> r = true.
  Proof.
    induction ws as [|x0 ws IH]; intros idx lms w n r lms' H K Hb E; cbn [update_comps] in E.
    - injection E as <- _. auto.
    - destruct lms as [|m t]; [discriminate|]. inversion H as [|? ? Hm Ht]; subst.
      inversion K as [|? x ? xs Kx Kt E1 E2]; subst. symmetry in E2. apply skipn_cons in E2. destruct E2 as [E2 E3].
      assert (Ex : hs_model s idx = x) by (unfold hs_model; rewrite E2; auto). rewrite Ex in E.
      apply bind_Ok in E. destruct E as [[y m'] [E4 E]]. assert (Y := ca_update _ _ _ AC b m x w n y m' Hm Kx Hb E4). subst y.
      apply bind_Ok in E. destruct E as [[z t'] [E5 E]]. injection E as <- _.
      eapply (IH (S idx) t); eauto. rewrite E3. auto.
  Qed.

  (** An update of a state that is there, with room in the pool. *)
  Lemma hub_update_true b h s w n r h' lms0 ctxs : hlive Inv ok b h -> enough_models h -> learn_cost w n <= b ->
    (h_bayes h = 0%nat \/ (forall c, In c (removelast w) -> 0 <= c)) ->
    trie ops true false lms0 h ctxs -> in_range h s = true ->
    hub_update ops h s w n = Ok (r, h') -> Z.of_nat (length (hs h')) < h_max h -> r = true.
  Proof.
    intros H En Hb G T Er E Hsz. unfold hub_update in E. pose proof (hl_wf _ _ _ _ H) as W.
    apply bind_Ok in E. destruct E as [h1 [E1 E]].
    destruct (ensure_states_wf _ _ _ _ _ W E1) as [W1 C1].
    apply bind_Ok in E. destruct E as [h2 [E2 E]].
    assert (WC2 : hwf h2 /\ same_config h1 h2).
    { destruct (0 <? h_bayes h)%nat.
      - eapply refresh_bayes_wf; eauto.
      - injection E2 as <-. auto using same_config_refl. }
    destruct WC2 as [W2 C2].
    assert (M1 : h_max h1 = h_max h) by apply C1. assert (M2 : h_max h2 = h_max h1) by apply C2.
    assert (S01 : (length (hs h) <= length (hs h1))%nat) by apply C1.
    assert (S12 : (length (hs h1) <= length (hs h2))%nat) by apply C2.
    rewrite Er in E. apply bind_Ok in E. destruct E as [x [E3 E]].
    apply bind_Ok in E. destruct E as [[ok1 lms'] [E4 E]].
    assert (H1 : hlive Inv ok b h1).
    { destruct (ensure_states_sure ops Inv ok A b w h s H) as [h1' [E1' H1]]. rewrite E1 in E1'. injection E1' as <-. exact H1. }
    assert (Rs : 0 <= s < Z.of_nat (length (hs h))) by (unfold in_range in Er; lia).
    assert (H2 : hlive Inv ok b h2).
    { destruct (Nat.ltb_spec 0 (h_bayes h)); [|injection E2 as <-; auto].
      destruct G as [G|G]; [lia|].
      destruct (refresh_bayes_sure ops Inv ok A b w h1 s H1) as [h2' [E2' H2]]; [lia|auto|]. rewrite E2 in E2'. injection E2' as <-. exact H2. }
    assert (X : ok1 = true).
    { eapply (update_comps_true b x); [apply H2| |exact Hb|exact E4]. apply (hl_live _ _ _ _ H2 _ (vgetZ_In _ _ _ _ E3)). }
    subst ok1. apply update_comps_len in E4 as L4. assert (W3 := set_lms_wf h2 lms' L4 W2).
    destruct (verify_states_wf _ _ _ _ _ _ W3 E) as [_ [_ L]]. cbn [set_lms hs] in L.
    destruct (trie_ensure _ _ _ _ _ _ _ _ _ W T E1) as (ctxs1 & T1 & X1); [lia|].
    assert (T2 : exists ctxs2, trie ops true false lms0 h2 ctxs2 /\ extends ctxs1 ctxs2).
    { destruct (0 <? h_bayes h)%nat.
      - eapply trie_refresh; [exact W1|exact T1|exact E2|lia].
      - injection E2 as <-. exists ctxs1; auto using extends_refl. }
    destruct T2 as (ctxs2 & T2 & X2).
    apply (update_comps_evolve ops true eq_refl) in E4.
    assert (T3 := trie_set_lms _ _ _ _ _ _ _ T2 E4).
    exact (proj2 (trie_verify ops true false w _ _ _ s _ _ W3 T3 (proj1 Rs) E)).
  Qed.

  Definition gives_scores (r : reply F) : Prop := exists sc, r = ScoresReply sc.

  Lemma scores_given b h s w rep h' : hlive Inv ok b h -> (w <> [] \/ to_int s < Z.of_nat (length (hs h))) ->
    handle ops h (GetLMScoresReq s w) = Ok (rep, h') -> gives_scores rep.
  Proof.
    intros H L E. cbn [handle] in E. unfold handle_get_lm_scores in E.
    apply bind_Ok in E. destruct E as [[r h1] [E1 E]]. apply bind_Ok in E. destruct E as [[x h2] [E2 E]]. injection E as <- <-.
    destruct (hub_context_wf _ _ _ _ _ _ (hl_wf _ _ _ _ H) E1) as (W1 & C1 & R0 & R).
    assert (H1 : hlive Inv ok b h1).
    { unfold hub_context in E1. destruct (hub_context_sure ops Inv ok A b w h (if to_int s <? 0 then 0 else to_int s) H) as [[r' h1'] [E1' H1]].
      rewrite E1 in E1'. injection E1' as <- <-. exact H1. }
    specialize (R L). destruct (extract_some b h1 r x h2 H1) as [sc ->]; auto; [unfold in_range; lia|]. exists sc. reflexivity.
  Qed.

  Lemma update_given b h s w n rep h' lms0 ctxs : hlive Inv ok b h -> enough_models h -> learn_cost w n <= b ->
    trie ops true false lms0 h ctxs -> 0 <= to_int s < Z.of_nat (length (hs h)) -> (forall c, In c w -> 0 <= c) ->
    handle ops h (UpdateLMScoresReq s w n) = Ok (rep, h') -> Z.of_nat (length (hs h')) < h_max h -> gives_scores rep.
  Proof.
    intros H En Hb T Rs N E Hsz. cbn [handle] in E. unfold handle_update_lm_scores in E. pose proof (hl_wf _ _ _ _ H) as W.
    apply bind_Ok in E. destruct E as [[cur h1] [E1 E]]. apply bind_Ok in E. destruct E as [[o h2] [E2 E]].
    destruct (next_states_wf _ _ _ _ _ _ W E1) as [W1 C1]. destruct (hub_update_wf _ _ _ _ _ _ _ W1 E2) as [W2 C2].
    assert (M1 : h_max h1 = h_max h) by apply C1.
    assert (L1 : (length (hs h) <= length (hs h1))%nat) by apply C1. assert (L2 : (length (hs h1) <= length (hs h2))%nat) by apply C2.
    destruct (next_states_sure ops Inv ok A b w h (to_int s) H) as [[cu h1'] [E1' H1]]. rewrite E1 in E1'. injection E1' as <- <-. cbn [snd] in H1.
    assert (L3 : (length (hs h2) <= length (hs h'))%nat).
    { destruct o; [|injection E as _ <-; auto]. apply bind_Ok in E. destruct E as [[x h3] [E3 E]]. injection E as _ <-.
      rewrite (extract_hs _ _ _ _ _ E3). auto. }
    assert (En1 : enough_models h1) by (eapply enough_same; eauto).
    assert (GN : forall c, In c (removelast w) -> 0 <= c).
    { intros c Hc. apply N. clear - Hc. induction w as [|a w IH]; [destruct Hc|]. destruct w; [destruct Hc|]. destruct Hc as [->|Hc]; [left; auto|right; apply IH; exact Hc]. }
    assert (E1c := E1). rewrite next_states_context in E1c by auto.
    destruct (nth_error ctxs (Z.to_nat (to_int s))) as [y|] eqn:Hy.
    2:{ apply nth_error_None in Hy. rewrite (t_len _ _ _ _ _ _ T) in Hy. lia. }
    destruct (trie_context_loop ops true false w lms0 h ctxs (to_int s) y cur h1) as (c1 & T1 & X1 & P0 & P1); auto; try lia.
    { apply ctx_at_nth; auto; lia. }
    destruct (hub_context_loop_wf ops _ _ _ _ _ W (proj1 Rs) E1c) as (_ & _ & _ & B). specialize (B (or_intror (proj2 Rs))).
    assert (O : o = true).
    { eapply (hub_update_true b h1 (to_int s) w n o h2 lms0 c1); eauto; [unfold in_range; lia|lia]. }
    subst o. apply bind_Ok in E. destruct E as [[x h3] [E3 E]]. injection E as <- <-.
    destruct (hub_update_sure ops Inv ok A b h1 (to_int s) w n H1 Hb En1) as [[o2 h2'] [E2' H2]].
    { right. split; auto. unfold in_range. lia. }
    rewrite E2 in E2'. injection E2' as <- <-. cbn [snd] in H2.
    destruct (extract_some _ h2 cur x h3 H2) as [sc ->]; auto; [unfold in_range; lia|]. exists sc. reflexivity.
  Qed.
End Accept.
