(** Query requests on the server leave earlier answers in place (C40). *)
From Verif Require Import Base Field LmModel HubModel HubSpec HubProofs HubQuery ServerModel.
Local Open Scope Z_scope.

(** A request that asks and does not teach. *)
Definition is_query_req (q : request) : bool := match q with UpdateLMScoresReq _ _ _ => false | _ => true end.
Definition req_state (q : request) : Z :=
  match q with GetNextStateReq s _ | GetLMScoresReq s _ | UpdateLMScoresReq s _ _ => s end.
Definition req_context (q : request) : list Z :=
  match q with GetNextStateReq _ w | GetLMScoresReq _ w | UpdateLMScoresReq _ w _ => w end.

Section ServerQuery.
  Context {F : ofield} {M : Type}.
  Variable ops : comp_ops F M.
  Notation hub := (hub F M).
  Implicit Types (h X Y : hub).

  (** One query keeps the hub well formed. *)
  Lemma query_wf h q rep h' : hwf h -> is_query_req q = true -> handle ops h q = Ok (rep, h') -> hwf h' /\ same_config h h'.
  Proof.
    intros W I H. destruct q as [s w|s w|]; [| |discriminate]; cbn [handle] in H.
    - unfold handle_get_next_state in H. apply bind_Ok in H. destruct H as [[r h1] [E1 E]]. injection E as <- <-.
      destruct (hub_context_wf _ _ _ _ _ _ W E1) as (A & B & _). auto.
    - unfold handle_get_lm_scores in H. apply bind_Ok in H. destruct H as [[r h1] [E1 E]]. apply bind_Ok in E. destruct E as [[x h2] [E2 E]].
      injection E as <- <-. destruct (hub_context_wf _ _ _ _ _ _ W E1) as (A & B & _).
      destruct (hub_extract_wf _ _ _ _ _ A E2) as (C & D & _). split; auto. eapply same_config_trans; eauto.
  Qed.
  Lemma queries_wf qs : forall h rs h', hwf h -> forallb is_query_req qs = true -> handle_all ops h qs = Ok (rs, h') ->
    hwf h' /\ same_config h h'.
  Proof.
    induction qs as [|q qs IH]; cbn [handle_all forallb]; intros h rs h' W I H.
    - injection H as <- <-. auto using same_config_refl.
    - apply andb_prop in I. destruct I as [I1 I2]. apply bind_Ok in H. destruct H as [[x h1] [E1 E]]. apply bind_Ok in E. destruct E as [[xs h2] [E2 E]].
      injection E as <- <-. destruct (query_wf _ _ _ _ W I1 E1) as [W1 C1]. destruct (IH _ _ _ W1 I2 E2) as [W2 C2].
      split; auto. eapply same_config_trans; eauto.
  Qed.

  Section Base.
    Variable h : hub.
    Hypothesis (W : hwf h) (Q : Forall (query_stable ops) (h_lms h)).

    Lemma ext_query X q rep X' : ext ops h X -> hwf X -> is_query_req q = true -> handle ops X q = Ok (rep, X') ->
      Z.of_nat (length (hs X')) < h_max h -> ext ops h X' /\ grows X X'.
    Proof.
      intros EX WX I H L. destruct q as [s w|s w|]; [| |discriminate]; cbn [handle] in H.
      - unfold handle_get_next_state in H. apply bind_Ok in H. destruct H as [[r h1] [E1 E]]. injection E as <- <-.
        unfold hub_context in E1. eapply ext_context; eauto. destruct (Z.ltb_spec (to_int s) 0); lia.
      - unfold handle_get_lm_scores in H. apply bind_Ok in H. destruct H as [[r h1] [E1 E]]. apply bind_Ok in E. destruct E as [[x h2] [E2 E]].
        injection E as <- <-.
        destruct (hub_context_wf _ _ _ _ _ _ WX E1) as (A & B & _). destruct (hub_extract_wf _ _ _ _ _ A E2) as (C & D & SH & _).
        unfold hub_context in E1. rewrite SH in L.
        destruct (ext_context ops h W Q w X (if to_int s <? 0 then 0 else to_int s) r h1 EX) as [EX1 G1]; auto. { destruct (Z.ltb_spec (to_int s) 0); lia. }
        destruct (ext_extract ops h _ _ _ _ EX1 E2) as [EX2 SH2]. split; auto.
        intros i t Hi. destruct (G1 i t Hi) as (t1 & T1 & T2). exists t1. rewrite SH2. auto.
    Qed.
    Lemma ext_queries qs : forall X rs X', ext ops h X -> hwf X -> forallb is_query_req qs = true -> handle_all ops X qs = Ok (rs, X') ->
      Z.of_nat (length (hs X')) < h_max h -> ext ops h X' /\ grows X X'.
    Proof.
      induction qs as [|q qs IH]; cbn [handle_all forallb]; intros X rs X' EX WX I H L.
      - injection H as <- <-. auto using grows_refl.
      - apply andb_prop in I. destruct I as [I1 I2]. apply bind_Ok in H. destruct H as [[x X1] [E1 E]]. apply bind_Ok in E. destruct E as [[xs X2] [E2 E]].
        injection E as <- <-. destruct (query_wf _ _ _ _ WX I1 E1) as [W1 C1]. destruct (queries_wf _ _ _ _ W1 I2 E2) as [W2 C2].
        assert (L1 : (length (hs X1) <= length (hs X2))%nat) by apply C2.
        destruct (ext_query _ _ _ _ EX WX I1 E1) as [EX1 G1]; [lia|].
        destruct (IH _ _ _ EX1 W1 I2 E2 L) as [EX2 G2]. split; auto. eapply grows_trans; eauto.
    Qed.

    (** The state a request is about: negative ones mean the start state. *)
    Definition asked_state (q : request) : Z := if to_int (req_state q) <? 0 then 0 else to_int (req_state q).

    Lemma pair_query_context X Y q : ext ops h X -> ext ops h Y -> asked_state q < Z.of_nat (length (hs h)) ->
      Z.of_nat (length (hs X) + length (req_context q)) < h_max h ->
      Z.of_nat (length (hs Y) + length (req_context q)) < h_max h ->
      forall r X1, hub_context ops X (req_context q) (to_int (req_state q)) = Ok (r, X1) ->
      exists r' Y1, hub_context ops Y (req_context q) (to_int (req_state q)) = Ok (r', Y1) /\
        same h X1 Y1 r r' /\ ext ops h X1 /\ ext ops h Y1.
    Proof.
      intros EX EY A LX LY r X1 E. unfold hub_context in *. fold (asked_state q) in *. refine (pair_context ops h W Q _ X Y _ _ r X1 EX EY _ LX LY E). constructor.
      split; [|exact A]. clear. unfold asked_state. destruct (Z.ltb_spec (to_int (req_state q)) 0); lia.
    Qed.

    Lemma same_grown_eq X Y i i' : grows X Y -> same h X Y i i' -> i = i'.
    Proof.
      intros G S. induction S as [i L|i i' s s' c j j' S IH Hs Hs' A A' L L']; auto. subst i'.
      destruct (G _ _ Hs) as (s1 & B1 & B2). rewrite Hs' in B1. injection B1 as <-. specialize (B2 _ _ A). congruence.
    Qed.
  End Base.

  (** Scores. *)
  Lemma scores_after_queries h qs rs h' s w rep h1 :
    hwf h -> Forall (query_stable ops) (h_lms h) ->
    forallb is_query_req qs = true -> handle_all ops h qs = Ok (rs, h') ->
    asked_state (GetLMScoresReq s w) < Z.of_nat (length (hs h)) ->
    Z.of_nat (length (hs h') + length w) < h_max h ->
    handle ops h (GetLMScoresReq s w) = Ok (rep, h1) ->
    exists h2, handle ops h' (GetLMScoresReq s w) = Ok (rep, h2).
  Proof.
    intros W Q I H A L E. destruct (queries_wf _ _ _ _ W I H) as [W' C'].
    assert (L0 : (length (hs h) <= length (hs h'))%nat) by apply C'.
    destruct (ext_queries h W Q qs h rs h' (ext_refl _ _) W I H) as [EX G]; [lia|].
    cbn [handle] in *. unfold handle_get_lm_scores in *. apply bind_Ok in E. destruct E as [[r X1] [E1 E]]. apply bind_Ok in E. destruct E as [[x X2] [E2 E]].
    injection E as <- <-.
    destruct (pair_query_context h W Q h h' (GetLMScoresReq s w) (ext_refl _ _) EX A) with (r := r) (X1 := X1) as (r' & Y1 & P1 & P2 & P3 & P4); auto.
    { cbn [req_context]. lia. }
    cbn [req_context req_state] in P1. rewrite P1. cbn [bind].
    pose proof (pair_extract ops h W Q _ _ _ _ P3 P4 P2) as AE. rewrite (ans_Ok _ _ _ E2) in AE. apply ans_inv in AE. destruct AE as [Y2 AE].
    rewrite AE. cbn [bind]. eauto.
  Qed.

  (** The same question again. *)
  Lemma repeat_after_queries h q rep h1 qs rs h2 :
    hwf h -> Forall (query_stable ops) (h_lms h) ->
    is_query_req q = true -> asked_state q < Z.of_nat (length (hs h)) ->
    handle ops h q = Ok (rep, h1) ->
    forallb is_query_req qs = true -> handle_all ops h1 qs = Ok (rs, h2) ->
    Z.of_nat (length (hs h2) + length (req_context q)) < h_max h ->
    exists h3, handle ops h2 q = Ok (rep, h3).
  Proof.
    intros W Q Iq A E I H L. destruct (query_wf _ _ _ _ W Iq E) as [W1 C1].
    destruct q as [s w|s w|]; [| |discriminate].
    - destruct (queries_wf _ _ _ _ W1 I H) as [W2 C2].
      assert (L1 : (length (hs h) <= length (hs h1))%nat) by apply C1.
      assert (L2 : (length (hs h1) <= length (hs h2))%nat) by apply C2.
      destruct (ext_query h W Q h _ _ _ (ext_refl _ _) W Iq E) as [EX1 G1]; [lia|].
      destruct (ext_queries h W Q qs h1 rs h2 EX1 W1 I H) as [EX2 G2]; [lia|].
      cbn [handle req_context] in *. unfold handle_get_next_state in *. apply bind_Ok in E. destruct E as [[r X1] [E1 E]]. injection E as <- <-.
      destruct (pair_query_context h W Q h h2 (GetNextStateReq s w) (ext_refl _ _) EX2 A) with (r := r) (X1 := X1) as (r' & Y1 & P1 & P2 & P3 & P4); auto.
      { cbn [req_context]. lia. }
      cbn [req_context req_state] in P1. rewrite P1. cbn [bind]. exists Y1.
      destruct (hub_context_wf _ _ _ _ _ _ W2 P1) as (WY & CY & _).
      assert (GY : grows h2 Y1).
      { assert (H0 : handle ops h2 (GetNextStateReq s w) = Ok (StateReply r', Y1)) by (cbn [handle]; unfold handle_get_next_state; rewrite P1; reflexivity).
        eapply (ext_query h W Q h2 (GetNextStateReq s w) _ _ EX2 W2 eq_refl H0). 
        assert (LB : forall ctx X i r0 X', hwf X -> 0 <= i -> ext ops h X -> Z.of_nat (length (hs X) + length ctx) < h_max h -> hub_context_loop ops X i ctx = Ok (r0, X') ->
                      (length (hs X') <= length (hs X) + length ctx)%nat).
        { clear - W Q. induction ctx as [|c ctx IH]; intros X i r0 X' WX I0 EX L H; cbn [hub_context_loop length] in *.
          - injection H as <- <-. lia.
          - apply bind_Ok in H. destruct H as [[r1 X1] [H1 H2]].
            destruct (hub_next_wf _ _ _ _ _ _ WX H1) as [W1 [C1 _]].
            pose proof (wf_nonempty _ WX) as N0.
            assert (ST : ext ops h X1 /\ (length (hs X1) <= length (hs X) + 1)%nat).
            { destruct (in_range X i) eqn:IR.
              - unfold in_range in IR. destruct (ext_step ops h W Q X i c r1 X1 EX I0 ltac:(lia) ltac:(lia) H1) as (? & _ & ?). auto.
              - rewrite hub_next_norm in H1 by auto.
                destruct (ext_step ops h W Q X 0 c r1 X1 EX ltac:(lia) ltac:(lia) ltac:(lia) H1) as (? & _ & ?). auto. }
            destruct ST as [EX1 LX1].
            assert (R0 : 0 <= (if r1 <? 0 then 0 else r1)) by (destruct (Z.ltb_spec r1 0); lia).
            pose proof (IH X1 _ _ _ W1 R0 EX1 ltac:(lia) H2). lia. }
        unfold hub_context in P1. apply LB in P1; auto; [lia|]. destruct (Z.ltb_spec (to_int s) 0); lia. }
      assert (X : r = r').
      { eapply same_grown_eq; [|exact P2]. eapply grows_trans; [exact G2|exact GY]. }
      subst r'. auto.
    - refine (scores_after_queries h (GetLMScoresReq s w :: qs) (rep :: rs) h2 s w rep h1 W Q I _ A L E).
      cbn [handle_all]. rewrite E. cbn [bind]. rewrite H. cbn [bind]. reflexivity.
  Qed.
End ServerQuery.
