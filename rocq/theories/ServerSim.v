(** Query requests leave earlier answers in place, for components taken as what can be observed of them
    (HubSim.v). *)
From Verif Require Import Base Field LmModel HubModel HubSpec HubProofs HubLive HubProps3 HubQuery HubSim HubLive2 ServerModel ServerEvolve ServerQuery HubTrie ServerUpdate.
Local Open Scope Z_scope.

Section ServerSim.
  Context {F : ofield} {M : Type}.
  Variable ops : comp_ops F M.
  Variable Inv : Z -> M -> Prop.
  Variable ok : M -> Z -> Prop.
  Hypothesis A : comps_answer ops Inv ok.
  Notation hub := (hub F M).
  Implicit Types (h X Y : hub).

  Lemma handle_all_live l : forall b h, hlive Inv ok b h -> enough_models h -> reqs_cost l <= b ->
    (h_bayes h = 0%nat \/ reqs_guarded ops h l) ->
    forall rs h', handle_all ops h l = Ok (rs, h') -> hlive Inv ok (b - reqs_cost l) h' /\ same_config h h'.
  Proof.
    induction l as [|q t IH]; intros b h H En Hc G rs h' E; cbn [handle_all] in E.
    - injection E as <- <-. cbn [reqs_cost fold_right]. rewrite Z.sub_0_r. auto using same_config_refl.
    - cbn [reqs_cost fold_right] in *. fold (reqs_cost t) in *. pose proof (reqs_cost_nonneg t).
      assert (G1 : h_bayes h = 0%nat \/ req_guarded h q) by (destruct G as [G|[G _]]; auto).
      destruct (handle_sure ops Inv ok A b h q H En ltac:(lia) G1) as [[x h1] [E1 [H1 C1]]]. cbn [snd] in *.
      rewrite E1 in E. cbn [bind] in E. apply bind_Ok in E. destruct E as [[xs h2] [E2 E]]. injection E as <- <-.
      destruct (IH (b - req_cost q) h1 H1) with (rs := xs) (h' := h2) as [H2 C2]; auto.
      + eapply enough_same; eauto.
      + lia.
      + destruct G as [G|[_ G]]; [left; destruct C1 as (_ & _ & C & _); congruence|right]. rewrite E1 in G. exact G.
      + split; [|eapply same_config_trans; eauto].
        replace (b - (req_cost q + reqs_cost t)) with (b - req_cost q - reqs_cost t) by lia. auto.
  Qed.

  Variable b : Z.
  Hypothesis CA : comps_calm ops Inv ok b.

  Section Base.
    Variable h : hub.
    Hypothesis HL : hlive Inv ok b h.
    Notation sext := (sext ops Inv ok b).

    Lemma sext_context_post ctx : forall X i r X', sext h X -> 0 <= i -> hub_context_loop ops X i ctx = Ok (r, X') ->
      Z.of_nat (length (hs X')) < h_max h -> sext h X' /\ grows X X'.
    Proof.
      induction ctx as [|c ctx IH]; intros X i r X' EX I0 H L; cbn [hub_context_loop] in H.
      - injection H as <- <-. auto using grows_refl.
      - apply bind_Ok in H. destruct H as [[r1 X1] [H1 H2]].
        pose proof (hl_wf _ _ _ _ (x_live _ _ _ _ _ _ EX)) as WX.
        destruct (hub_next_wf _ _ _ _ _ _ WX H1) as [W1 [C1 _]].
        assert (R1 : 0 <= (if r1 <? 0 then 0 else r1)) by (destruct (Z.ltb_spec r1 0); lia).
        destruct (hub_context_loop_wf _ _ _ _ _ _ W1 R1 H2) as (_ & C2 & _).
        assert (L2 : (length (hs X1) <= length (hs X'))%nat) by apply C2.
        assert (L1 : (length (hs X) <= length (hs X1))%nat) by apply C1.
        pose proof (wf_nonempty _ WX) as N0.
        assert (ST : sext h X1 /\ grows X X1).
        { destruct (in_range X i) eqn:IR.
          - unfold in_range in IR. destruct (sext_step ops Inv ok A b CA h HL X i c EX I0 ltac:(lia) ltac:(lia)) as (x & r2 & X2 & _ & E & E1 & G & _).
            rewrite H1 in E. injection E as <- <-. auto.
          - rewrite hub_next_norm in H1 by auto.
            destruct (sext_step ops Inv ok A b CA h HL X 0 c EX ltac:(lia) ltac:(lia) ltac:(lia)) as (x & r2 & X2 & _ & E & E1 & G & _).
            rewrite H1 in E. injection E as <- <-. auto. }
        destruct ST as [E1 G1]. destruct (IH X1 _ _ _ E1 R1 H2 L) as [E2 G2].
        split; auto. eapply grows_trans; eauto.
    Qed.
    Lemma asked_nonneg s : 0 <= (if to_int s <? 0 then 0 else to_int s).
    Proof. destruct (Z.ltb_spec (to_int s) 0); lia. Qed.

    Lemma sext_query X q rep X' : sext h X -> is_query_req q = true -> handle ops X q = Ok (rep, X') ->
      Z.of_nat (length (hs X')) < h_max h -> sext h X' /\ grows X X'.
    Proof.
      intros EX I H L. destruct q as [s w|s w|]; [| |discriminate]; cbn [handle] in H.
      - unfold handle_get_next_state in H. apply bind_Ok in H. destruct H as [[r h1] [E1 E]]. injection E as <- <-.
        unfold hub_context in E1. eapply sext_context_post; eauto. apply asked_nonneg.
      - unfold handle_get_lm_scores in H. apply bind_Ok in H. destruct H as [[r h1] [E1 E]]. apply bind_Ok in E. destruct E as [[x h2] [E2 E]].
        injection E as <- <-. pose proof (hl_wf _ _ _ _ (x_live _ _ _ _ _ _ EX)) as WX.
        destruct (hub_context_wf _ _ _ _ _ _ WX E1) as (W1 & B & _). destruct (hub_extract_wf _ _ _ _ _ W1 E2) as (C & D & SH & _).
        unfold hub_context in E1. rewrite SH in L.
        destruct (sext_context_post w X _ r h1 EX (asked_nonneg s) E1 L) as [EX1 G1].
        destruct (sext_extract ops Inv ok A b CA h _ _ _ _ EX1 E2) as [EX2 SH2]. split; auto.
        intros i t Hi. destruct (G1 i t Hi) as (t1 & T1 & T2). exists t1. rewrite SH2. auto.
    Qed.
    Lemma sext_queries qs : forall X rs X', sext h X -> forallb is_query_req qs = true -> handle_all ops X qs = Ok (rs, X') ->
      Z.of_nat (length (hs X')) < h_max h -> sext h X' /\ grows X X'.
    Proof.
      induction qs as [|q qs IH]; cbn [handle_all forallb]; intros X rs X' EX I H L.
      - injection H as <- <-. auto using grows_refl.
      - apply andb_prop in I. destruct I as [I1 I2]. apply bind_Ok in H. destruct H as [[x X1] [E1 E]]. apply bind_Ok in E. destruct E as [[xs X2] [E2 E]].
        injection E as <- <-. pose proof (hl_wf _ _ _ _ (x_live _ _ _ _ _ _ EX)) as WX.
        destruct (query_wf _ _ _ _ _ WX I1 E1) as [W1 C1]. destruct (queries_wf _ _ _ _ _ W1 I2 E2) as [W2 C2].
        assert (L1 : (length (hs X1) <= length (hs X2))%nat) by apply C2.
        destruct (sext_query _ _ _ _ EX I1 E1) as [EX1 G1]; [lia|].
        destruct (IH _ _ _ EX1 I2 E2 L) as [EX2 G2]. split; auto. eapply grows_trans; eauto.
    Qed.

    (** A query to two extensions: it is answered, by states that are the same. *)
    Lemma spair_query X Y s w : sext h X -> sext h Y ->
      (if to_int s <? 0 then 0 else to_int s) < Z.of_nat (length (hs h)) ->
      Z.of_nat (length (hs X) + length w) < h_max h -> Z.of_nat (length (hs Y) + length w) < h_max h ->
      forall r X1, hub_context ops X w (to_int s) = Ok (r, X1) ->
      exists r' Y1, hub_context ops Y w (to_int s) = Ok (r', Y1) /\ same h X1 Y1 r r' /\ sext h X1 /\ sext h Y1 /\ grows Y Y1.
    Proof.
      intros EX EY R LX LY r X1 E. unfold hub_context in *. pose proof (asked_nonneg s) as N.
      destruct (sext_context ops Inv ok A b CA h HL w X _ EX N LX) as (r0 & X0 & E0 & P1 & P2 & P3).
      rewrite E in E0. injection E0 as <- <-.
      destruct (sext_context ops Inv ok A b CA h HL w Y _ EY N LY) as (r' & Y1 & E1 & Q1 & Q2 & Q3).
      exists r', Y1. split; auto. split; auto.
      eapply (spair_context ops Inv ok A b CA h HL w X Y); [exact EX|exact EY| |exact LX|exact LY|exact E|exact E1].
      constructor. split; auto.
    Qed.

    Lemma made_same_query X q rep X1 : sext h X -> grows h X -> is_query_req q = true -> asked_state q < Z.of_nat (length (hs h)) ->
      Z.of_nat (length (hs X) + length (req_context q)) < h_max h ->
      enough_models h ->
      handle ops h q = Ok (rep, X1) -> (match q with GetNextStateReq _ _ => grows X1 X | _ => True end) ->
      exists X2, handle ops X q = Ok (rep, X2).
    Proof.
      intros EX G I AS L En E G1. pose proof (x_len _ _ _ _ _ _ EX) as LN.
      destruct q as [s w|s w|]; [| |discriminate]; cbn [handle req_context] in *.
      - unfold handle_get_next_state in *. apply bind_Ok in E. destruct E as [[r h1] [E1 E]]. injection E as <- <-.
        destruct (spair_query h X s w (sext_refl ops Inv ok b h HL) EX AS ltac:(lia) L _ _ E1) as (r' & Y1 & E2 & S & _ & _ & G2).
        rewrite E2. cbn [bind]. exists Y1. assert (r = r'); [|subst; reflexivity].
        eapply same_grown_eq; [|exact S]. eapply grows_trans; eauto.
      - unfold handle_get_lm_scores in *. apply bind_Ok in E. destruct E as [[r h1] [E1 E]]. apply bind_Ok in E. destruct E as [[x h2] [E2 E]].
        injection E as <- <-.
        destruct (spair_query h X s w (sext_refl ops Inv ok b h HL) EX AS ltac:(lia) L _ _ E1) as (r' & Y1 & E3 & S & P1 & P2 & G2).
        rewrite E3. cbn [bind].
        assert (EnY : enough_models Y1).
        { pose proof (hub_context_wf _ _ _ _ _ _ (hl_wf _ _ _ _ (x_live _ _ _ _ _ _ EX)) E3) as (_ & CY & _).
          eapply enough_same; [exact CY|]. destruct En as [En1 En2]. unfold enough_models.
          rewrite (x_weights _ _ _ _ _ _ EX). pose proof (x_lms _ _ _ _ _ _ EX) as FL. apply Forall2_length in FL. rewrite <- FL. auto. }
        destruct (hub_extract_sure ops Inv ok A b Y1 r' (x_live _ _ _ _ _ _ P2) EnY) as [[x' Y2] [E4 _]].
        rewrite E4. cbn [bind].
        assert (x = x') by (eapply (spair_extract ops Inv ok A b h HL); [exact P1|exact P2|exact S|exact E2|exact E4]). subst x'. eauto.
    Qed.
  End Base.

  Lemma made_scores_after_queries h s w rep h1 qs rs h2 :
    hlive Inv ok b h -> enough_models h ->
    asked_state (GetLMScoresReq s w) < Z.of_nat (length (hs h)) ->
    handle ops h (GetLMScoresReq s w) = Ok (rep, h1) ->
    forallb is_query_req qs = true -> handle_all ops h qs = Ok (rs, h2) ->
    Z.of_nat (length (hs h2) + length w) < h_max h ->
    exists h3, handle ops h2 (GetLMScoresReq s w) = Ok (rep, h3).
  Proof.
    intros HL En AS E I H L.
    destruct (sext_queries h HL qs h rs h2 (sext_refl ops Inv ok b h HL) I H) as [EX G]; [lia|].
    eapply made_same_query; eauto.
  Qed.
  Lemma made_repeat_after_queries h q rep h1 qs rs h2 :
    hlive Inv ok b h -> enough_models h ->
    is_query_req q = true -> asked_state q < Z.of_nat (length (hs h)) ->
    handle ops h q = Ok (rep, h1) ->
    forallb is_query_req qs = true -> handle_all ops h1 qs = Ok (rs, h2) ->
    Z.of_nat (length (hs h2) + length (req_context q)) < h_max h ->
    exists h3, handle ops h2 q = Ok (rep, h3).
  Proof.
    intros HL En Iq AS E I H L. pose proof (hl_wf _ _ _ _ HL) as W.
    destruct (query_wf _ _ _ _ _ W Iq E) as [W1 C1]. destruct (queries_wf _ _ _ _ _ W1 I H) as [W2 C2].
    assert (L2 : (length (hs h1) <= length (hs h2))%nat) by apply C2.
    destruct (sext_query h HL h _ _ _ (sext_refl ops Inv ok b h HL) Iq E) as [EX1 G1]; [lia|].
    destruct (sext_queries h HL qs h1 rs h2 EX1 I H) as [EX2 G2]; [lia|].
    eapply made_same_query; eauto; [eapply grows_trans; eauto|]. destruct q; auto.
  Qed.
End ServerSim.

(** How many states requests can add to the pool: a state for each symbol, and for updates at most
    three (they walk the symbols up to three times). *)
Section Traffic.
  Context {F : ofield} {M : Type}.
  Variable ops : comp_ops F M.
  Notation hub := (hub F M).
  Implicit Types (h : hub).

  Lemma context_loop_len w : forall h s r h', hub_context_loop ops h s w = Ok (r, h') -> (length (hs h') <= length (hs h) + length w)%nat.
  Proof.
    induction w as [|c w IH]; cbn [hub_context_loop length]; intros h s r h' E; [injection E as <- <-; lia|].
    apply bind_Ok in E. destruct E as [[r1 h1] [E1 E]]. apply next_len in E1. apply IH in E. lia.
  Qed.
  Lemma ensure_len w : forall h s h', ensure_states ops h s w = Ok h' -> (length (hs h') <= length (hs h) + length w)%nat.
  Proof.
    induction w as [|c w IH]; cbn [ensure_states length]; intros h s h' E; [injection E as <-; lia|].
    apply bind_Ok in E. destruct E as [[r1 h1] [E1 E]]. apply next_len in E1. apply IH in E. lia.
  Qed.
  Lemma bayes_len h i h' : update_bayesian_history ops h i = Ok h' -> length (hs h') = length (hs h).
  Proof.
    unfold update_bayesian_history. intros E7. destruct (_ && _); [|injection E7 as <-; auto].
    apply bind_Ok in E7. destruct E7 as [y [_ E7]]. destruct (0 <=? h_prev y); [|injection E7 as <-; auto].
    apply bind_Ok in E7. destruct E7 as [z [_ E7]]. apply bind_Ok in E7. destruct E7 as [[pr l7] [_ E7]]. injection E7 as <-.
    cbn. rewrite upd_length. auto.
  Qed.
  Lemma refresh_next_len l : forall h h', refresh_next ops h l = Ok h' -> length (hs h') = length (hs h).
  Proof.
    induction l as [|[c i] l IH]; cbn [refresh_next]; intros h h' E; [injection E as <-; auto|].
    apply bind_Ok in E. destruct E as [h1 [E1 E]]. apply bayes_len in E1. apply IH in E. congruence.
  Qed.
  Lemma refresh_len w : forall h s h', refresh_bayes ops h s w = Ok h' -> (length (hs h') <= length (hs h) + length w)%nat.
  Proof.
    induction w as [|c w IH]; cbn [refresh_bayes length]; intros h s h' E; [injection E as <-; lia|].
    apply bind_Ok in E. destruct E as [x [_ E]]. apply bind_Ok in E. destruct E as [h1 [E1 E]].
    apply bind_Ok in E. destruct E as [[r1 h2] [E2 E]]. apply refresh_next_len in E1. apply next_len in E2. apply IH in E. lia.
  Qed.
  Lemma verify_len w : forall h s r h', verify_states ops h s w = Ok (r, h') -> length (hs h') = length (hs h).
  Proof.
    induction w as [|c w IH]; cbn [verify_states]; intros h s r h' E; [injection E as <- <-; auto|].
    apply bind_Ok in E. destruct E as [x [_ E]]. destruct (_ <? 0); [injection E as <- <-; auto|].
    apply bind_Ok in E. destruct E as [[st l] [_ E]]. apply bind_Ok in E. destruct E as [ns [_ E]].
    destruct (_ && _); [|injection E as <- <-; auto]. apply IH in E. rewrite E. cbn. apply upd_length.
  Qed.
  Lemma hub_update_len h s w n r h' : hub_update ops h s w n = Ok (r, h') -> (length (hs h') <= length (hs h) + 2 * length w)%nat.
  Proof.
    unfold hub_update. intros E. apply bind_Ok in E. destruct E as [h1 [E1 E]]. apply bind_Ok in E. destruct E as [h2 [E2 E]].
    apply ensure_len in E1. assert (L2 : (length (hs h2) <= length (hs h1) + length w)%nat).
    { destruct (0 <? h_bayes h)%nat; [eapply refresh_len; eauto|injection E2 as <-; lia]. }
    destruct (in_range h s); [|injection E as <- <-; lia].
    apply bind_Ok in E. destruct E as [x [_ E]]. apply bind_Ok in E. destruct E as [[ok l] [_ E]].
    destruct ok; [apply verify_len in E; cbn in E|injection E as <- <-; cbn]; lia.
  Qed.
  Lemma extract_len h s r h' : hub_extract ops h s = Ok (r, h') -> length (hs h') = length (hs h).
  Proof.
    unfold hub_extract. destruct (negb _); [intros [= <- <-]; auto|]. intros E. apply bind_Ok in E. destruct E as [x [_ E]].
    destruct (_ <? 2)%nat.
    - destruct (h_lms h); [discriminate|]. apply bind_Ok in E. destruct E as [[sc m'] [_ E]]. injection E as <- <-. auto.
    - apply bind_Ok in E. destruct E as [ws [_ E]]. apply bind_Ok in E. destruct E as [[sc l] [_ E]]. injection E as <- <-. auto.
  Qed.

  Definition req_symbols (q : request) : nat :=
    match q with UpdateLMScoresReq _ w _ => 3 * length w | _ => length (req_context q) end.
  Definition traffic (l : list request) : nat := fold_right (fun q a => (req_symbols q + a)%nat) 0%nat l.
  Lemma handle_len h q rep h' : handle ops h q = Ok (rep, h') -> (length (hs h') <= length (hs h) + req_symbols q)%nat.
  Proof.
    intros H. destruct q as [s w|s w|s w n]; cbn [handle req_symbols req_context] in *.
    - unfold handle_get_next_state in H. apply bind_Ok in H. destruct H as [[r h1] [E1 E]]. injection E as <- <-. eapply context_loop_len; exact E1.
    - unfold handle_get_lm_scores in H. apply bind_Ok in H. destruct H as [[r h1] [E1 E]]. apply bind_Ok in E. destruct E as [[x h2] [E2 E]].
      injection E as <- <-. apply context_loop_len in E1. apply extract_len in E2. lia.
    - unfold handle_update_lm_scores in H. apply bind_Ok in H. destruct H as [[r h1] [E1 E]]. apply bind_Ok in E. destruct E as [[ok h2] [E2 E]].
      apply next_states_len in E1. apply hub_update_len in E2.
      destruct ok; [|injection E as <- <-; lia]. apply bind_Ok in E. destruct E as [[x h3] [E3 E]]. injection E as <- <-.
      apply extract_len in E3. lia.
  Qed.
  Lemma handle_all_len l : forall h rs h', handle_all ops h l = Ok (rs, h') -> (length (hs h') <= length (hs h) + traffic l)%nat.
  Proof.
    induction l as [|q l IH]; cbn [handle_all traffic fold_right]; intros h rs h' E; [injection E as <- <-; lia|]. fold (traffic l).
    apply bind_Ok in E. destruct E as [[x h1] [E1 E]]. apply bind_Ok in E. destruct E as [[xs h2] [E2 E]]. injection E as <- <-.
    apply handle_len in E1. apply IH in E2. lia.
  Qed.
End Traffic.

(** The reply to an update (C57), for the same components. *)
Section UpdateSim.
  Context {F : ofield} {M : Type}.
  Variable ops : comp_ops F M.
  Variable Inv : Z -> M -> Prop.
  Variable ok : M -> Z -> Prop.
  Hypothesis A : comps_answer ops Inv ok.
  Hypothesis CA : forall b, comps_calm ops Inv ok b.
  Notation hub := (hub F M).
  Notation trie := (trie ops true false).

  Lemma made_update_reply b lms0 (h : hub) ctxs s w n rep h' :
    hlive Inv ok b h -> enough_models h -> learn_cost w n <= b -> trie lms0 h ctxs ->
    0 <= to_int s < Z.of_nat (length (hs h)) -> (forall c, In c w -> 0 <= c) ->
    handle ops h (UpdateLMScoresReq s w n) = Ok (rep, h') ->
    Z.of_nat (length (hs h')) < h_max h -> rep <> InvalidArgument ->
    exists h2, handle ops h' (GetLMScoresReq s w) = Ok (rep, h2).
  Proof.
    intros HL En Hc T R N H L NI. pose proof (hl_wf _ _ _ _ HL) as W.
    cbn [handle] in *. unfold handle_update_lm_scores in H. unfold handle_get_lm_scores.
    apply bind_Ok in H. destruct H as [[curr h1] [E1 E]]. apply bind_Ok in E. destruct E as [[k h2] [E2 E]].
    destruct (next_states_sure ops Inv ok A b w h (to_int s) HL) as [[cur0 h10] [E10 HL1]]. rewrite E1 in E10. injection E10 as <- <-. cbn [snd] in HL1.
    destruct (next_states_wf _ _ _ _ _ _ W E1) as [W1 C1]. destruct (hub_update_wf _ _ _ _ _ _ _ W1 E2) as [W2 C2].
    assert (L1 : (length (hs h) <= length (hs h1))%nat) by apply C1. assert (L2 : (length (hs h1) <= length (hs h2))%nat) by apply C2.
    assert (En1 : enough_models h1) by (eapply enough_same; eauto). assert (En2 : enough_models h2) by (eapply enough_same; eauto).
    destruct (hub_update_sure ops Inv ok A b h1 (to_int s) w n HL1 Hc En1) as [[k0 h20] [E20 HL2]].
    { right. split; [unfold in_range; lia|]. intros c Ic. apply N. clear - Ic. induction w as [|x w IH]; [destruct Ic|].
      destruct w as [|y w]; [destruct Ic|]. destruct Ic as [<-|Ic]; [left; auto|right; apply IH; exact Ic]. }
    rewrite E2 in E20. injection E20 as <- <-. cbn [snd] in HL2.
    destruct k; [|injection E as <- <-; congruence].
    apply bind_Ok in E. destruct E as [[x h3] [E3 E]]. injection E as <- <-.
    destruct (hub_extract_wf _ _ _ _ _ W2 E3) as (W3 & C3 & SH & _).
    assert (M1 : h_max h1 = h_max h) by apply C1. assert (M2 : h_max h2 = h_max h1) by apply C2. rewrite SH in L.
    rewrite next_states_context in E1 by auto.
    destruct (nth_error ctxs (Z.to_nat (to_int s))) as [y|] eqn:Hy.
    2:{ apply nth_error_None in Hy. rewrite (t_len _ _ _ _ _ _ T) in Hy. lia. }
    destruct (trie_context_loop ops true false w lms0 h ctxs (to_int s) y curr h1) as (c1 & T1 & X1 & P0 & P1); auto; try lia.
    { apply ctx_at_nth; auto; lia. }
    destruct (trie_update ops true false eq_refl _ _ _ _ _ _ _ _ W1 T1 E2) as (c2 & T2 & X2); [lia|].
    pose proof (trie_extract _ _ _ _ _ _ _ _ _ T2 E3) as T3.
    assert (CR : curr < Z.of_nat (length (hs h1))).
    { destruct (hub_context_loop_wf ops _ _ _ _ _ W (proj1 R) E1) as (_ & _ & _ & B). apply B. right. lia. }
    assert (K1 : nth_error c1 (Z.to_nat curr) = Some (y ++ w)) by (eapply ctx_lookup; eauto).
    assert (K2 : nth_error c2 (Z.to_nat curr) = Some (y ++ w)) by (eapply extends_nth; eauto).
    assert (K3 : nth_error c2 (Z.to_nat (to_int s)) = Some y) by (eapply extends_nth; [exact X2|]; eapply extends_nth; eauto).
    unfold hub_context. destruct (Z.ltb_spec (to_int s) 0); [lia|].
    assert (TW : hub_context_loop ops h3 (to_int s) w = Ok (curr, h3)).
    { eapply (trie_walk ops lms0 h3 c2 (to_int s) y W3 T3); auto. rewrite SH; lia. }
    rewrite TW. cbn [bind].
    pose proof (CA (b - learn_cost w n)) as CA2.
    pose proof (sext_refl ops Inv ok _ h2 HL2) as S2.
    destruct (sext_extract ops Inv ok A _ CA2 h2 _ _ _ _ S2 E3) as [S3 _].
    assert (En3 : enough_models h3) by (eapply enough_same; eauto).
    destruct (hub_extract_sure ops Inv ok A _ h3 curr (x_live _ _ _ _ _ _ S3) En3) as [[x' h4] [E4 _]].
    rewrite E4. cbn [bind].
    assert (x = x'); [|subst; eauto].
    eapply (spair_extract ops Inv ok A _ h2 HL2 h2 h3 curr curr); [exact S2|exact S3|constructor; lia|exact E3|exact E4].
  Qed.
End UpdateSim.
