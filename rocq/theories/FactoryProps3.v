(** Property C40 for the hubs that configurations describe: made of models of all four kinds. *)
From Coq Require Import String.
From Verif Require Import Base Field LmModel HubModel FactoryModel.
From Verif Require Import HubSpec HubProofs HubProps3 HubLive HubLiveInst HubQuery HubLive2 HubSim HubCalm HubNoErr.
From Verif Require Import ServerModel ServerEvolve ServerQuery ServerProps2 ServerSim HubTrie ServerUpdate FactoryProps FactoryProps2.
Local Open Scope Z_scope.
Close Scope string_scope.
Local Notation length := List.length.

Section C40.
  Context {F : ofield}.
  Variable ext : externals F.
  Variable d : disk F.
  Variable c : model_hub_config F.
  Variable b : Z.
  Variable h0 : hub F (any_model F).
  Hypothesis X : externals_ok ext.
  Hypothesis N : mh_models c <> [].
  Hypothesis E : make_model_hub ext d c = Ok h0.
  Hypothesis W : Forall2 (well_made ext d b) (mh_models c) (h_lms h0).

  Lemma asked_live (h : hub F (any_model F)) r : hwf h -> int32 (req_state r) -> live_state h (req_state r) ->
    asked_state r < Z.of_nat (length (hs h)).
  Proof.
    intros WF I L. unfold asked_state, live_state in *. rewrite to_int_id by auto. pose proof (wf_nonempty _ WF).
    destruct (Z.ltb_spec (req_state r) 0); lia.
  Qed.
  Lemma after_requests l rs h : reqs_cost l <= b -> mh_mixture c = MixNone \/ mh_bayes c <= 0 \/ reqs_guarded any_ops h0 l ->
    handle_all any_ops h0 l = Ok (rs, h) -> exists b', 0 <= b' /\ hlive any_inv any_valid b' h /\ enough_models h.
  Proof.
    intros Hc G El. destruct (made_live ext d c b h0 X N E W) as (H & En & B).
    destruct (handle_all_live any_ops any_inv any_valid any_answers l b h0 H En Hc) with (rs := rs) (h' := h) as [H' C]; auto.
    - destruct G as [G|[G|G]]; auto.
    - exists (b - reqs_cost l). split; [lia|]. split; auto. eapply enough_same; eauto.
  Qed.

  (** Queries do not change scores.  The hub is one a configuration describes, of bigram, PPM, n-gram and
      word models in any mixture, and has handled any requests, updates among them: if no state has to be
      recycled, then after any further queries the scores for a state that was there, and any context,
      are what they were. *)
  Theorem C40_made_queries_keep_scores_partial : forall l rs0 h s w rep h1 qs rs h2,
    reqs_cost l <= b -> mh_mixture c = MixNone \/ mh_bayes c <= 0 \/ reqs_guarded any_ops h0 l ->
    handle_all any_ops h0 l = Ok (rs0, h) ->
    int32 s -> live_state h s ->
    handle any_ops h (GetLMScoresReq s w) = Ok (rep, h1) ->
    forallb is_query_req qs = true -> handle_all any_ops h qs = Ok (rs, h2) ->
    Z.of_nat (length (hs h2) + length w) < h_max h2 ->
    exists h3, handle any_ops h2 (GetLMScoresReq s w) = Ok (rep, h3).
  Proof.
    intros l rs0 h s w rep h1 qs rs h2 Hc G El I L Eq Iq Hq Lm.
    destruct (after_requests _ _ _ Hc G El) as (b' & B0 & HL & En). pose proof (hl_wf _ _ _ _ HL) as WF.
    destruct (queries_wf _ _ _ _ _ WF Iq Hq) as [_ C2].
    eapply (made_scores_after_queries any_ops any_inv any_valid any_answers b' (any_calm b') h s w rep h1 qs rs h2); auto.
    - apply asked_live; auto.
    - assert (h_max h2 = h_max h) by apply C2. lia.
  Qed.

  (** The same question, whenever it is asked again with only questions in between, gets the same answer:
      the same scores or the same state. *)
  Theorem C40_made_repeated_query_partial : forall l rs0 h q rep h1 qs rs h2,
    reqs_cost l <= b -> mh_mixture c = MixNone \/ mh_bayes c <= 0 \/ reqs_guarded any_ops h0 l ->
    handle_all any_ops h0 l = Ok (rs0, h) ->
    is_query_req q = true -> int32 (req_state q) -> live_state h (req_state q) ->
    handle any_ops h q = Ok (rep, h1) ->
    forallb is_query_req qs = true -> handle_all any_ops h1 qs = Ok (rs, h2) ->
    Z.of_nat (length (hs h2) + length (req_context q)) < h_max h2 ->
    exists h3, handle any_ops h2 q = Ok (rep, h3).
  Proof.
    intros l rs0 h q rep h1 qs rs h2 Hc G El Qq I L Eq Iq Hq Lm.
    destruct (after_requests _ _ _ Hc G El) as (b' & B0 & HL & En). pose proof (hl_wf _ _ _ _ HL) as WF.
    destruct (query_wf _ _ _ _ _ WF Qq Eq) as [W1 C1]. destruct (queries_wf _ _ _ _ _ W1 Iq Hq) as [_ C2].
    eapply (made_repeat_after_queries any_ops any_inv any_valid any_answers b' (any_calm b') h q rep h1 qs rs h2); auto.
    - apply asked_live; auto.
    - assert (h_max h1 = h_max h) by apply C1. assert (h_max h2 = h_max h1) by apply C2. lia.
  Qed.

  (** ** In terms of requests and replies alone *)
  Lemma handle_all_app l1 : forall l2 (h : hub F (any_model F)), handle_all any_ops h (l1 ++ l2) =
    (let* (r1, h1) := handle_all any_ops h l1 in let* (r2, h2) := handle_all any_ops h1 l2 in Ok (r1 ++ r2, h2)).
  Proof.
    induction l1 as [|q l1 IH]; intros l2 h; cbn [handle_all app bind].
    - destruct (handle_all any_ops h l2) as [[r2 h2]| | |]; reflexivity.
    - destruct (handle any_ops h q) as [[x h1]| | |]; cbn [bind]; auto. rewrite IH.
      destruct (handle_all any_ops h1 l1) as [[r1 h2]| | |]; cbn [bind]; auto.
      destruct (handle_all any_ops h2 l2) as [[r2 h3]| | |]; reflexivity.
  Qed.
  Lemma replies_length l : forall (h : hub F (any_model F)) rs h', handle_all any_ops h l = Ok (rs, h') -> length rs = length l.
  Proof.
    induction l as [|q l IH]; intros h rs h' El; cbn [handle_all] in El; [injection El as <- <-; auto|].
    apply bind_Ok in El. destruct El as [[x h1] [E1 El]]. apply bind_Ok in El. destruct El as [[xs h2] [E2 El]]. injection El as <- <-.
    cbn [length]. f_equal. eauto.
  Qed.
  Lemma queries_cost qs : forallb is_query_req qs = true -> reqs_cost qs = 0.
  Proof.
    induction qs as [|q qs IH]; cbn [forallb reqs_cost fold_right]; auto. intros H. apply andb_prop in H. destruct H as [H1 H2].
    fold (reqs_cost qs). rewrite IH by auto. destruct q; try discriminate; reflexivity.
  Qed.
  Lemma queries_guarded qs : forall h : hub F (any_model F), forallb is_query_req qs = true -> reqs_guarded any_ops h qs.
  Proof.
    induction qs as [|q qs IH]; cbn [forallb reqs_guarded]; auto. intros h H. apply andb_prop in H. destruct H as [H1 H2].
    split; [destruct q; try discriminate; exact I|]. destruct (handle any_ops h q) as [[x h1]| | |]; auto.
  Qed.
  Lemma traffic_app l1 l2 : traffic (l1 ++ l2) = (traffic l1 + traffic l2)%nat.
  Proof. induction l1 as [|q l1 IH]; cbn [traffic fold_right app]; auto. fold (traffic (l1 ++ l2)). fold (traffic l1). lia. Qed.

  (** A state a client may ask about: not positive (the start state), or returned as the next state
      after some symbols. *)
  Definition given_out (l : list request) (rs : list (reply F)) (s : Z) : Prop :=
    s <= 0 \/ exists i s0 w, nth_error l i = Some (GetNextStateReq s0 w) /\ w <> [] /\ nth_error rs i = Some (StateReply s).
  Lemma given_live l : forall h rs h' s, hwf h -> handle_all any_ops h l = Ok (rs, h') -> given_out l rs s -> live_state h' s.
  Proof.
    intros h rs h' s WF El [G|(i & s0 & w & Gi & Gw & Gr)]; unfold live_state.
    - destruct (handle_all_ok _ _ _ _ _ WF El) as (W' & _ & _). pose proof (wf_nonempty _ W'). lia.
    - revert h rs h' i WF El Gi Gr. induction l as [|q l IH]; intros h rs h' i WF El Gi Gr; [destruct i; discriminate|].
      cbn [handle_all] in El. apply bind_Ok in El. destruct El as [[x h1] [E1 El]]. apply bind_Ok in El. destruct El as [[xs h2] [E2 El]].
      injection El as <- <-. destruct (handle_ok _ _ _ _ _ WF E1) as (W1 & _ & _).
      destruct i as [|i]; cbn [nth_error] in *; [|eapply IH; eauto]. injection Gi as ->. injection Gr as ->.
      destruct (handle_all_ok _ _ _ _ _ W1 E2) as (W2 & C2 & _).
      cbn [handle] in E1. unfold handle_get_next_state in E1. apply bind_Ok in E1. destruct E1 as [[r h3] [E1 Ex]]. injection Ex as -> <-.
      destruct (hub_context_wf _ _ _ _ _ _ WF E1) as (_ & _ & _ & B). specialize (B (or_introl Gw)).
      assert ((length (hs h3) <= length (hs h2))%nat) by apply C2. lia.
  Qed.

  (** Any requests [l], a question [q] about a state that was given out, more questions [qs], and [q]
      again: it gets the reply it got the first time, provided the symbols sent so far (those of updates
      counted three times) are fewer than the states of the pool. *)
  Theorem C40_made_same_reply_partial : forall l rs0 h q qs,
    reqs_cost l <= b -> mh_mixture c = MixNone \/ mh_bayes c <= 0 \/ reqs_guarded any_ops h0 l ->
    handle_all any_ops h0 l = Ok (rs0, h) ->
    is_query_req q = true -> forallb is_query_req qs = true ->
    int32 (req_state q) -> given_out l rs0 (req_state q) ->
    Z.of_nat (1 + traffic (l ++ q :: qs ++ [q])) < h_max h0 ->
    exists rs h', handle_all any_ops h0 (l ++ q :: qs ++ [q]) = Ok (rs, h') /\
      exists rep, nth_error rs (length l) = Some rep /\ nth_error rs (length l + 1 + length qs) = Some rep.
  Proof.
    intros l rs0 h q qs Hc G El Qq Qs I Gv T.
    destruct (made_live ext d c b h0 X N E W) as (H0 & _ & _). pose proof (hl_wf _ _ _ _ H0) as W0.
    destruct (after_requests _ _ _ Hc G El) as (b' & B0 & HL & En). pose proof (hl_wf _ _ _ _ HL) as WF.
    assert (Qa : forallb is_query_req (q :: qs) = true) by (cbn [forallb]; rewrite Qq; auto).
    assert (L0 : length (hs h0) = 1%nat).
    { unfold make_model_hub in E. destruct (mh_models c) as [|c1 cs]; [congruence|].
      apply bind_Ok in E. destruct E as [ms [_ E']]. apply initialize_ok in E'. destruct E' as (_ & _ & _ & _ & _ & -> & _). reflexivity. }
    rewrite !traffic_app in T. cbn [traffic fold_right] in T. fold (traffic (qs ++ [q])) in T. rewrite traffic_app in T.
    assert (K : exists rs1 h2, handle_all any_ops h (q :: qs) = Ok (rs1, h2)).
    { destruct (handle_all_sure any_ops any_inv any_valid any_answers (q :: qs) b' h HL En) as [[rs1 h2] [E1 _]]; eauto.
      - rewrite queries_cost; auto.
      - right. apply queries_guarded. auto. }
    destruct K as (rs1 & h2 & E1). pose proof (replies_length _ _ _ _ El) as RL.
    pose proof (handle_all_len _ _ _ _ _ El) as L1. pose proof (handle_all_len _ _ _ _ _ E1) as L2.
    destruct (handle_all_ok _ _ _ _ _ W0 El) as (_ & C0 & _). destruct (handle_all_ok _ _ _ _ _ WF E1) as (_ & C1 & _).
    pose proof E1 as E1'. cbn [handle_all] in E1'. apply bind_Ok in E1'. destruct E1' as [[rep h1] [Eq E1']].
    apply bind_Ok in E1'. destruct E1' as [[xs h2'] [Es E1']]. injection E1' as <- <-.
    destruct (C40_made_repeated_query_partial l rs0 h q rep h1 qs xs h2' Hc G El Qq I) as [h3 E3]; auto.
    - apply (given_live l h0 rs0 h); auto.
    - assert (h_max h = h_max h0) by apply C0. assert (h_max h2' = h_max h) by apply C1.
      assert (SY : req_symbols q = length (req_context q)) by (destruct q; try discriminate; reflexivity).
      cbn [traffic fold_right] in L2, T. fold (traffic qs) in L2. lia.
    - exists (rs0 ++ (rep :: xs) ++ [rep]), h3. split.
      + rewrite handle_all_app, El. cbn [bind].
        change (q :: qs ++ [q]) with ((q :: qs) ++ [q]). rewrite handle_all_app, E1. cbn [bind handle_all]. rewrite E3. reflexivity.
      + exists rep. rewrite <- RL, <- (replies_length _ _ _ _ Es). split.
        * rewrite nth_error_app2, Nat.sub_diag by lia. reflexivity.
        * rewrite nth_error_app2 by lia. replace (length rs0 + 1 + length xs - length rs0)%nat with (length (rep :: xs)) by (cbn; lia).
          rewrite nth_error_app2, Nat.sub_diag by lia. reflexivity.
  Qed.

  (** The reply to an update is the scores after the symbols that were learned: asking for them next,
      from the same state, gives the same reply. *)
  Theorem C57_made_update_reply : forall l rs0 h s w n rep h1,
    reqs_cost (l ++ [UpdateLMScoresReq s w n]) <= b ->
    mh_mixture c = MixNone \/ mh_bayes c <= 0 \/ reqs_guarded any_ops h0 l ->
    handle_all any_ops h0 l = Ok (rs0, h) ->
    int32 s -> 0 <= s -> live_state h s -> (forall x, In x w -> 0 <= x) ->
    handle any_ops h (UpdateLMScoresReq s w n) = Ok (rep, h1) -> rep <> InvalidArgument ->
    Z.of_nat (length (hs h1)) < h_max h1 ->
    exists h2, handle any_ops h1 (GetLMScoresReq s w) = Ok (rep, h2).
  Proof.
    intros l rs0 h s w n rep h1 Hc G El I S0 Hs Hn Eu NI L.
    assert (RC : reqs_cost (l ++ [UpdateLMScoresReq s w n]) = reqs_cost l + learn_cost w n).
    { clear. unfold reqs_cost. rewrite fold_right_app. cbn [fold_right req_cost]. induction l as [|q l IH]; cbn [fold_right]; lia. }
    pose proof (learn_cost_nonneg w n) as LC.
    destruct (made_live ext d c b h0 X N E W) as (H0 & En0 & B). pose proof (hl_wf _ _ _ _ H0) as W0.
    destruct (handle_all_live any_ops any_inv any_valid any_answers l b h0 H0 En0) with (rs := rs0) (h' := h) as [HL C]; auto; [lia| |].
    { destruct G as [G|[G|G]]; auto. }
    pose proof (hl_wf _ _ _ _ HL) as WF.
    destruct (handle_ok _ _ _ _ _ WF Eu) as (W1 & C1 & _).
    assert (M1 : h_max h1 = h_max h) by apply C1. assert (M0 : h_max h = h_max h0) by apply C.
    assert (L1 : (length (hs h) <= length (hs h1))%nat) by apply C1.
    assert (T0 : exists lms, trie any_ops true false lms h0 [[]]).
    { unfold make_model_hub in E. destruct (mh_models c) as [|c1 cs]; [congruence|].
      apply bind_Ok in E. destruct E as [ms [_ E']]. exists ms. apply (trie_init any_ops true false ms (hub_config_of c) h0); auto; [discriminate|].
      apply Forall_forall. intros m _. apply any_scores_total. }
    destruct T0 as [lms T0]. destruct (handle_all_run _ _ _ _ _ El) as [ol Hr].
    destruct (trie_run any_ops true false ol _ _ _ _ W0 T0 (or_introl eq_refl) Hr) as (ctxs & T & _); [lia|].
    apply (made_update_reply any_ops any_inv any_valid any_answers any_calm (b - reqs_cost l) lms h ctxs s w n rep h1); auto.
    - eapply enough_same; eauto.
    - lia.
    - rewrite to_int_id by auto. unfold live_state in Hs. lia.
    - lia.
  Qed.
End C40.
Print Assumptions C40_made_queries_keep_scores_partial.
Print Assumptions C40_made_repeated_query_partial.
Print Assumptions C40_made_same_reply_partial.
Print Assumptions C57_made_update_reply.

(** ** The hypotheses are met: the hub of FactoryProps2.v, with one model of each kind and a Bayesian
    history, taught something, and asked about a state it gave out. *)
Definition four_teach : list request := [GetNextStateReq 0 [97; 98]; UpdateLMScoresReq 0 [97; 98; 99] 5].
Definition four_ask : request := GetLMScoresReq 2 [97; 32].
Definition four_between : list request := [GetNextStateReq 0 [98; 98]; GetLMScoresReq 1 [99]; GetLMScoresReq 2 []].
Definition is_scores (r : option (reply Qc_field)) : bool :=
  match r with Some (ScoresReply sc) => (3 <? length (sc_entries sc))%nat | _ => false end.
Example C40_made_hypotheses_met : exists h0 rs0 h,
  make_model_hub four_ext four_disk four_config = Ok h0 /\
  Forall2 (well_made four_ext four_disk 1000000) (mh_models four_config) (h_lms h0) /\
  reqs_cost four_teach <= 1000000 /\ reqs_guarded any_ops h0 four_teach /\
  handle_all any_ops h0 four_teach = Ok (rs0, h) /\
  is_query_req four_ask = true /\ forallb is_query_req four_between = true /\
  int32 (req_state four_ask) /\ given_out four_teach rs0 (req_state four_ask) /\
  Z.of_nat (1 + traffic (four_teach ++ four_ask :: four_between ++ [four_ask])) < h_max h0 /\
  (exists rs h', handle_all any_ops h0 (four_teach ++ [four_ask]) = Ok (rs, h') /\ is_scores (nth_error rs 2) = true).
Proof.
  assert (K : match make_model_hub four_ext four_disk four_config with
              | Ok h => forall2b (well_madeb four_disk 1000000) (mh_models four_config) (h_lms h) &&
                        reqs_guardedb any_ops h four_teach &&
                        match handle_all any_ops h four_teach with
                        | Ok (StateReply 2 :: _, _) => true | _ => false end &&
                        (Z.of_nat (1 + traffic (four_teach ++ four_ask :: four_between ++ [four_ask])) <? h_max h) &&
                        match handle_all any_ops h (four_teach ++ [four_ask]) with
                        | Ok (rs, _) => is_scores (nth_error rs 2) | _ => false end
              | _ => false
              end = true) by vmr.
  destruct (make_model_hub four_ext four_disk four_config) as [h0| | |] eqn:E; [|discriminate K..].
  apply andb_prop in K. destruct K as [K K5]. apply andb_prop in K. destruct K as [K K4]. apply andb_prop in K. destruct K as [K K3].
  apply andb_prop in K. destruct K as [K1 K2].
  destruct (handle_all any_ops h0 four_teach) as [[rs0 h]| | |] eqn:E1; [|discriminate K3..].
  destruct (handle_all any_ops h0 (four_teach ++ [four_ask])) as [[rs h']| | |] eqn:E2; [|discriminate K5..].
  exists h0, rs0, h. split; [reflexivity|]. split; [revert K1; apply forall2b_sound; intros c m; apply well_madeb_sound|].
  split; [vm_compute; discriminate|]. split; [apply reqs_guardedb_ok; auto|]. split; [exact E1|]. split; [reflexivity|]. split; [reflexivity|].
  split; [vm_compute; split; [discriminate|reflexivity]|]. split; [|split; [apply Z.ltb_lt; auto|eauto]].
  right. exists 0%nat, 0, [97; 98]. split; [reflexivity|]. split; [discriminate|].
  destruct rs0 as [|[t| |] rs0]; try discriminate K3. cbn [nth_error]. cbn [four_ask req_state].
  destruct t as [|[p|[p|p|]|]|p]; try discriminate K3. reflexivity.
Qed.
