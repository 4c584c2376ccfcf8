(** Property C65: requests about states the server gave out are not refused. *)
From Coq Require Import String.
From Verif Require Import Base Field LmModel HubModel FactoryModel.
From Verif Require Import HubSpec HubProofs HubProps3 HubTrie HubMix HubLive HubLiveInst HubQuery HubLive2 HubSim HubCalm HubNoErr HubDist HubDistInst HubAccept HubAcceptInst.
From Verif Require Import ServerModel ServerEvolve ServerQuery ServerProps ServerProps2 ServerSim ServerUpdate FactoryProps FactoryProps2 FactoryProps3 FactoryProps4 FactoryProps5.
Local Open Scope Z_scope.
Close Scope string_scope.
Local Notation length := List.length.

Section C65.
  Context {F : ofield}.
  Variable ext : externals F.
  Variable d : disk F.
  Variable c : model_hub_config F.
  Variable b : Z.
  Variable h0 : hub F (any_model F).
  Hypothesis X : externals_ok ext.
  Hypothesis N : mh_models c <> [].
  Hypothesis E : make_model_hub ext d c = Ok h0.
  Hypothesis W : Forall2 (well_made ext d b) (mh_models c) (h_lms h0).

  (** Scores for a state that was given out, or after any symbols: whatever was asked and learnt before, and
      however many states have been recycled, the reply is a list of scores. *)
  Theorem C65_scores_given : forall l rs h s w,
    reqs_cost l <= b -> mh_mixture c = MixNone \/ mh_bayes c <= 0 \/ reqs_guarded any_ops h0 l ->
    handle_all any_ops h0 l = Ok (rs, h) ->
    w <> [] \/ (int32 s /\ given_out l rs s) ->
    exists sc h', handle any_ops h (GetLMScoresReq s w) = Ok (ScoresReply sc, h').
  Proof.
    intros l rs h s w Hc G El Hs. destruct (after_requests ext d c b h0 X N E W _ _ _ Hc G El) as (b' & B0 & HL & En).
    destruct (made_live ext d c b h0 X N E W) as (H0 & _ & _). pose proof (hl_wf _ _ _ _ H0) as W0.
    destruct (handle_sure any_ops any_inv any_valid any_answers b' h (GetLMScoresReq s w) HL En) as [[rep h'] [Eh _]]; cbn [req_cost req_guarded]; auto.
    destruct (scores_given any_ops any_inv any_valid any_answers any_accept b' h s w rep h' HL) as [sc ->]; eauto.
    destruct Hs as [Hs|[I Hs]]; auto. right. rewrite to_int_id by auto. apply (given_live l h0 rs h s W0 El Hs).
  Qed.

  (** The next state, after any symbols, is one the server then gives scores for. *)
  Theorem C65_next_state_given : forall l rs h s w,
    reqs_cost l <= b -> mh_mixture c = MixNone \/ mh_bayes c <= 0 \/ reqs_guarded any_ops h0 l ->
    handle_all any_ops h0 l = Ok (rs, h) -> w <> [] \/ (int32 s /\ given_out l rs s) -> h_max h0 <= 2 ^ 31 ->
    exists t h' sc h'', handle any_ops h (GetNextStateReq s w) = Ok (StateReply t, h') /\ 0 <= t < h_max h0 /\
      handle any_ops h' (GetLMScoresReq t []) = Ok (ScoresReply sc, h'').
  Proof.
    intros l rs h s w Hc G El Hs Hmax. destruct (after_requests ext d c b h0 X N E W _ _ _ Hc G El) as (b' & B0 & HL & En).
    destruct (made_live ext d c b h0 X N E W) as (H0 & _ & _). pose proof (hl_wf _ _ _ _ H0) as W0.
    destruct (handle_sure any_ops any_inv any_valid any_answers b' h (GetNextStateReq s w) HL En) as [[rep h'] [Eh [HL' C']]]; cbn [req_cost req_guarded]; auto.
    cbn [snd req_cost] in *. pose proof Eh as Eh'. cbn [handle] in Eh'. unfold handle_get_next_state in Eh'.
    apply bind_Ok in Eh'. destruct Eh' as [[t h1] [E1 Ex]]. injection Ex as <- <-.
    destruct (hub_context_wf _ _ _ _ _ _ (hl_wf _ _ _ _ HL) E1) as (W1 & C1 & R0 & R).
    destruct (handle_all_ok _ _ _ _ _ W0 El) as (_ & C0 & _).
    assert (Rt : t < Z.of_nat (length (hs h1))).
    { apply R. destruct Hs as [Hs|[I Hs]]; auto. right. rewrite to_int_id by auto. apply (given_live l h0 rs h s W0 El Hs). }
    assert (Mx : Z.of_nat (length (hs h1)) <= h_max h0).
    { pose proof (wf_size _ W1). assert (h_max h1 = h_max h) by apply C1. assert (h_max h = h_max h0) by apply C0. lia. }
    assert (It : int32 t) by (unfold int32; lia).
    assert (En' : enough_models h1) by (eapply enough_same; eauto).
    destruct (handle_sure any_ops any_inv any_valid any_answers (b' - 0) h1 (GetLMScoresReq t []) HL' En') as [[rep h''] [Eh2 _]]; cbn [req_cost req_guarded]; auto; [lia|].
    destruct (scores_given any_ops any_inv any_valid any_answers any_accept _ h1 t [] rep h'' HL') as [sc ->]; auto.
    { right. rewrite to_int_id by auto. auto. }
    exists t, h1, sc, h''. split; auto. split; [lia|auto].
  Qed.

  Lemma made_trie : exists lms, trie any_ops true false lms h0 [[]].
  Proof.
    pose proof E as E1. unfold make_model_hub in E1. destruct (mh_models c) as [|c1 cs]; [congruence|].
    apply bind_Ok in E1. destruct E1 as [ms [_ E']]. exists ms. apply (trie_init any_ops true false ms (hub_config_of c) h0); auto; [discriminate|].
    apply Forall_forall. intros m _. apply any_scores_total.
  Qed.
  Lemma made_one : length (hs h0) = 1%nat.
  Proof.
    pose proof E as E1. unfold make_model_hub in E1. destruct (mh_models c) as [|c1 cs]; [congruence|].
    apply bind_Ok in E1. destruct E1 as [ms [_ E']]. apply initialize_ok in E'. destruct E' as (_ & _ & _ & _ & _ & -> & _). reflexivity.
  Qed.
  Lemma cost_snoc l q : reqs_cost (l ++ [q]) = reqs_cost l + req_cost q.
  Proof. unfold reqs_cost. rewrite fold_right_app. cbn [fold_right]. induction l as [|x l IH]; cbn [fold_right]; lia. Qed.

  (** An update for a state that was given out is learned and answered with scores, if the pool of states
      still has room for the symbols. *)
  Theorem C65_update_accepted_partial : forall l rs h s w n,
    reqs_cost (l ++ [UpdateLMScoresReq s w n]) <= b ->
    mh_mixture c = MixNone \/ mh_bayes c <= 0 \/ reqs_guarded any_ops h0 l ->
    handle_all any_ops h0 l = Ok (rs, h) ->
    int32 s -> 0 <= s -> given_out l rs s -> (forall x, In x w -> 0 <= x) ->
    Z.of_nat (1 + traffic (l ++ [UpdateLMScoresReq s w n])) < h_max h0 ->
    exists sc h', handle any_ops h (UpdateLMScoresReq s w n) = Ok (ScoresReply sc, h').
  Proof.
    intros l rs h s w n Hc G El I S0 Gv Hn T. rewrite cost_snoc in Hc. cbn [req_cost] in Hc.
    rewrite traffic_app in T. cbn [traffic fold_right req_symbols] in T.
    pose proof (learn_cost_nonneg w n) as LC.
    destruct (made_live ext d c b h0 X N E W) as (H0 & En0 & B). pose proof (hl_wf _ _ _ _ H0) as W0.
    destruct (handle_all_live any_ops any_inv any_valid any_answers l b h0 H0 En0) with (rs := rs) (h' := h) as [HL C]; auto; [lia| |].
    { destruct G as [G|[G|G]]; auto. }
    pose proof (hl_wf _ _ _ _ HL) as WF. assert (En : enough_models h) by (eapply enough_same; eauto).
    pose proof (given_live l h0 rs h s W0 El Gv) as Lv. unfold live_state in Lv.
    assert (IR : in_range h (to_int s) = true) by (rewrite to_int_id by auto; unfold in_range; lia).
    assert (GN : forall x, In x (removelast w) -> 0 <= x).
    { intros x Hx. apply Hn. clear - Hx. induction w as [|a w IH]; [destruct Hx|]. destruct w; [destruct Hx|]. destruct Hx as [->|Hx]; [left; auto|right; apply IH; exact Hx]. }
    destruct (handle_sure any_ops any_inv any_valid any_answers _ h (UpdateLMScoresReq s w n) HL En) as [[rep h'] [Eh _]]; cbn [req_cost req_guarded]; auto; [lia|].
    destruct made_trie as [lms T0]. destruct (handle_all_run _ _ _ _ _ El) as [ol Hr].
    pose proof (handle_all_len _ _ _ _ _ El) as L1. pose proof (handle_len _ _ _ _ _ Eh) as L2. cbn [req_symbols] in L2. pose proof made_one as L0.
    assert (M0 : h_max h = h_max h0) by apply C.
    destruct (trie_run any_ops true false ol _ _ _ _ W0 T0 (or_introl eq_refl) Hr) as (ctxs & Tr & _); [lia|].
    destruct (update_given any_ops any_inv any_valid any_answers any_accept (b - reqs_cost l) h s w n rep h' lms ctxs) as [sc ->]; eauto.
    - lia.
    - rewrite to_int_id by auto. lia.
    - lia.
  Qed.

  (** A whole conversation, in terms of requests and replies alone: a client that only uses the start state
      and states it was given in reply to requests, and only sends characters, is never refused and the
      server answers everything, as long as the symbols sent (those of updates counted three times) are
      fewer than the states of the pool and the models have room for the counts. *)
  Definition polite (l : list request) : Prop := forall l1 q l2 rs1 h1, l = l1 ++ q :: l2 -> handle_all any_ops h0 l1 = Ok (rs1, h1) ->
    int32 (req_state q) /\ 0 <= req_state q /\ given_out l1 rs1 (req_state q) /\ (forall x, In x (req_context q) -> 0 <= x).

  Lemma guarded_snoc l : forall (h : hub F (any_model F)) rs h1 q, handle_all any_ops h l = Ok (rs, h1) -> reqs_guarded any_ops h l -> req_guarded h1 q ->
    reqs_guarded any_ops h (l ++ [q]).
  Proof.
    induction l as [|a l IH]; intros h rs h1 q El G Gq; cbn [handle_all app reqs_guarded] in *.
    - injection El as _ <-. split; auto. destruct (handle any_ops h q) as [[x h2]| | |]; exact I.
    - destruct G as [G1 G2]. split; auto. apply bind_Ok in El. destruct El as [[x h2] [E1 El]]. rewrite E1 in *.
      apply bind_Ok in El. destruct El as [[xs h3] [E2 El]]. injection El as _ <-. eauto.
  Qed.

  Theorem C65_conversation_partial : forall l, polite l ->
    reqs_cost l <= b -> Z.of_nat (1 + traffic l) < h_max h0 ->
    exists rs h, handle_all any_ops h0 l = Ok (rs, h) /\ length rs = length l /\ ~ In InvalidArgument rs.
  Proof.
    intros l. assert (P : polite l -> reqs_cost l <= b -> Z.of_nat (1 + traffic l) < h_max h0 ->
      exists rs h, handle_all any_ops h0 l = Ok (rs, h) /\ reqs_guarded any_ops h0 l /\ ~ In InvalidArgument rs).
    2:{ intros. destruct P as (rs & h & E1 & _ & E2); auto. exists rs, h. split; auto. split; auto. eapply replies_length; eauto. }
    induction l as [|q l IH] using rev_ind; intros P Hc T.
    - exists [], h0. split; [reflexivity|]. split; [exact I|intros []].
    - rewrite cost_snoc in Hc. pose proof T as T'. rewrite traffic_app in T'.
      assert (Hq : 0 <= req_cost q) by (destruct q; cbn [req_cost]; try lia; apply learn_cost_nonneg).
      destruct IH as (rs & h & El & G & NI); [|lia|lia|].
      { intros l1 q1 l2 rs1 h1 E1 E2. apply (P l1 q1 (l2 ++ [q]) rs1 h1); auto. rewrite E1, <- app_assoc. reflexivity. }
      destruct (P l q [] rs h eq_refl El) as (I1 & S0 & Gv & Hn).
      destruct (made_live ext d c b h0 X N E W) as (H0 & En0 & B). pose proof (hl_wf _ _ _ _ H0) as W0.
      pose proof (given_live l h0 rs h _ W0 El Gv) as Lv. unfold live_state in Lv.
      assert (K : exists rep h', handle any_ops h q = Ok (rep, h') /\ rep <> InvalidArgument).
      { destruct q as [s w|s w|s w n]; cbn [req_state req_context req_cost] in *.
        - destruct (after_requests ext d c b h0 X N E W l rs h) as (b' & B0 & HL & En); auto; [lia|].
          destruct (handle_sure any_ops any_inv any_valid any_answers b' h (GetNextStateReq s w) HL En) as [[rep h'] [Eh _]]; cbn [req_cost req_guarded]; auto.
          exists rep, h'. split; auto. cbn [handle] in Eh. unfold handle_get_next_state in Eh.
          apply bind_Ok in Eh. destruct Eh as [[t h1] [_ Ex]]. injection Ex as <- _. discriminate.
        - destruct (C65_scores_given l rs h s w) as (sc & h' & Eh); auto; [lia|]. exists (ScoresReply sc), h'. split; [auto|discriminate].
        - destruct (C65_update_accepted_partial l rs h s w n) as (sc & h' & Eh); auto; [rewrite cost_snoc; cbn [req_cost]; lia|].
          exists (ScoresReply sc), h'. split; [auto|discriminate]. }
      destruct K as (rep & h' & Eq & Nr). exists (rs ++ [rep]), h'.
      split; [|split].
      + rewrite handle_all_app, El. cbn [bind handle_all]. rewrite Eq. reflexivity.
      + eapply guarded_snoc; eauto. destruct q as [s w|s w|s w n]; cbn [req_guarded req_state req_context] in *; auto.
        split; [rewrite to_int_id by auto; unfold in_range; lia|].
        intros x Hx. apply Hn. clear - Hx. induction w as [|a w IH]; [destruct Hx|]. destruct w; [destruct Hx|]. destruct Hx as [->|Hx]; [left; auto|right; apply IH; exact Hx].
      + intros Hi. apply in_app_iff in Hi. destruct Hi as [Hi|[Hi|[]]]; auto.
  Qed.
End C65.
Print Assumptions C65_scores_given.
Print Assumptions C65_next_state_given.
Print Assumptions C65_update_accepted_partial.
Print Assumptions C65_conversation_partial.

(** When the pool is full, an update for a state that was given out (state 5, and only characters) can be
    refused, although the counts have been learned. *)
Definition worn : list request :=
  [GetNextStateReq 0 [97; 97; 97; 97; 97; 97; 97; 97; 97]; GetNextStateReq 0 [97; 97; 97; 97; 97]; GetNextStateReq 1 [98]].
Theorem C65_refused_but_learned_refuted :
  replies 0 10 (worn ++ [UpdateLMScoresReq 5 [98; 98; 98; 98; 98] 1]) =
    Ok [StateReply 9; StateReply 5; StateReply 1; InvalidArgument] /\
  last_entries 0 10 (worn ++ [GetLMScoresReq 0 [98]]) =
    Ok [([0], q 1 3); ([97], q 2 9); ([98], q 1 3); ([99], q 1 9)] /\
  last_entries 0 10 (worn ++ [UpdateLMScoresReq 5 [98; 98; 98; 98; 98] 1; GetLMScoresReq 0 [98]]) =
    Ok [([0], q 1 8); ([97], q 1 12); ([98], q 3 4); ([99], q 1 24)].
Proof. repeat split; vmr. Qed.
Print Assumptions C65_refused_but_learned_refuted.

(** ** The hypotheses are met: the hub of FactoryProps2.v, with one model of each kind and a Bayesian
    history, and a conversation about states it gave out. *)
Definition polite_talk : list request :=
  [GetNextStateReq 0 [97; 98]; UpdateLMScoresReq 2 [97; 98; 99] 5; GetLMScoresReq 2 [97; 32]; GetNextStateReq 2 [97; 98]; GetLMScoresReq 4 []].
Lemma polite_cases {F : ofield} (h0 : hub F (any_model F)) l rs h : handle_all any_ops h0 l = Ok (rs, h) ->
  (forall i q, nth_error l i = Some q -> int32 (req_state q) /\ 0 <= req_state q /\ given_out (firstn i l) (firstn i rs) (req_state q) /\
     (forall x, In x (req_context q) -> 0 <= x)) -> polite h0 l.
Proof.
  intros El K l1 q l2 rs1 h1 -> E1. rewrite handle_all_app, E1 in El. cbn [bind] in El.
  apply bind_Ok in El. destruct El as [[r2 h2] [E2 El]]. injection El as <- _.
  assert (L : length l1 = length rs1) by (symmetry; eapply replies_length; eauto).
  destruct (K (length l1) q) as (K1 & K2 & K3 & K4).
  { rewrite nth_error_app2, Nat.sub_diag by lia. reflexivity. }
  rewrite firstn_app, Nat.sub_diag, firstn_all, L, firstn_app, Nat.sub_diag, firstn_all, !firstn_O, !app_nil_r in K3. auto.
Qed.
Example C65_hypotheses_met : exists h0,
  make_model_hub four_ext four_disk four_config = Ok h0 /\
  Forall2 (well_made four_ext four_disk 1000000) (mh_models four_config) (h_lms h0) /\
  reqs_cost polite_talk <= 1000000 /\ Z.of_nat (1 + traffic polite_talk) < h_max h0 /\ polite h0 polite_talk.
Proof.
  assert (K : match make_model_hub four_ext four_disk four_config with
              | Ok h => forall2b (well_madeb four_disk 1000000) (mh_models four_config) (h_lms h) &&
                        (Z.of_nat (1 + traffic polite_talk) <? h_max h) &&
                        match handle_all any_ops h polite_talk with
                        | Ok ([StateReply 2; _; _; StateReply 4; _], _) => true | _ => false end
              | _ => false
              end = true) by vmr.
  destruct (make_model_hub four_ext four_disk four_config) as [h0| | |] eqn:E; [|discriminate K..].
  apply andb_prop in K. destruct K as [K K3]. apply andb_prop in K. destruct K as [K1 K2].
  destruct (handle_all any_ops h0 polite_talk) as [[rs h]| | |] eqn:E1; [|discriminate K3..].
  exists h0. split; [reflexivity|]. split; [revert K1; apply forall2b_sound; intros c m; apply well_madeb_sound|].
  split; [vm_compute; discriminate|]. split; [apply Z.ltb_lt; auto|].
  apply (polite_cases h0 polite_talk rs h E1). clear - K3.
  destruct rs as [|[t0| |] [|r1 [|r2 [|[t3| |] [|r4 [|]]]]]]; try discriminate K3;
    (destruct t0 as [|[p|[p|p|]|]|p]; try discriminate K3).
  all: destruct t3 as [|[p|[p|[p|p|]|]|]|p]; try discriminate K3.
  assert (G2 : forall l rs, given_out (F := Qc_field) (GetNextStateReq 0 [97; 98] :: l) (StateReply 2 :: rs) 2).
  { intros. right. exists 0%nat, 0, [97; 98]. repeat split. discriminate. }
  intros [|[|[|[|[|i]]]]] q Hq; cbn [polite_talk nth_error firstn] in *; [..|destruct i; discriminate Hq]; injection Hq as <-; cbn [req_state req_context].
  all: (split; [vm_compute; split; [discriminate|reflexivity]|]); (split; [vm_compute; discriminate|]); (split; [|cbn [In]; intuition lia]).
  - left. lia.
  - apply G2.
  - apply G2.
  - apply G2.
  - right. exists 3%nat, 2, [97; 98]. repeat split. discriminate.
Qed.
