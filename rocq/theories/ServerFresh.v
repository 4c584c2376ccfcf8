(** What a state stands for in a conversation of queries, and what is replied about it: vocabulary and
    proofs for C62. *)
From Verif Require Import Base Field LmModel HubModel HubSpec HubProofs HubLive HubProps3 HubQuery HubSim HubLive2 HubMix HubProps HubProps2 HubTrie HubFresh
  ServerModel ServerEvolve ServerQuery ServerProps2 ServerUpdate ServerSim.
Local Open Scope Z_scope.

(** In a conversation with requests [l] and replies [rs], the state [s] stands for the context [u]: it is
    not positive (the start state, the empty context), or it was the reply to a request for the state
    after [w] from one that stood for what [u] starts with. *)
Inductive stands_for {F : ofield} : list request -> list (reply F) -> Z -> list Z -> Prop :=
| sf_start l rs s : - 2 ^ 31 <= s <= 0 -> stands_for l rs s []
| sf_next l1 rs1 s u w l2 s' rs2 : stands_for l1 rs1 s u -> length l1 = length rs1 ->
    stands_for (l1 ++ GetNextStateReq s w :: l2) (rs1 ++ StateReply s' :: rs2) s' (u ++ w).

(** What a component model, left to itself, answers for the context [w]. *)
Definition answers_for {F : ofield} {M : Type} (ops : comp_ops F M) (w : list Z) (m : M) (r : option (lm_scores (car F))) : Prop :=
  exists t m1 m2, c_walk ops m (c_start ops m) w = Ok (t, m1) /\ c_extract ops m1 t = Ok (r, m2).

Section ServerFresh.
  Context {F : ofield} {M : Type}.
  Variable ops : comp_ops F M.
  Notation hub := (hub F M).
  Implicit Types (h X Y : hub).

  Lemma all_app l1 : forall l2 h, handle_all ops h (l1 ++ l2) =
    (let* (r1, h1) := handle_all ops h l1 in let* (r2, h2) := handle_all ops h1 l2 in Ok (r1 ++ r2, h2)).
  Proof.
    induction l1 as [|q l1 IH]; intros l2 h; cbn [handle_all app bind].
    - destruct (handle_all ops h l2) as [[r2 h2]| | |]; reflexivity.
    - destruct (handle ops h q) as [[x h1]| | |]; cbn [bind]; auto. rewrite IH.
      destruct (handle_all ops h1 l1) as [[r1 h2]| | |]; cbn [bind]; auto.
      destruct (handle_all ops h2 l2) as [[r2 h3]| | |]; reflexivity.
  Qed.
  Lemma all_length l : forall h rs h', handle_all ops h l = Ok (rs, h') -> length rs = length l.
  Proof.
    induction l as [|q l IH]; intros h rs h' El; cbn [handle_all] in El; [injection El as <- <-; auto|].
    apply bind_Ok in El. destruct El as [[x h1] [E1 El]]. apply bind_Ok in El. destruct El as [[xs h2] [E2 El]]. injection El as <- <-.
    cbn [length]. f_equal. eauto.
  Qed.
  Lemma app_same_length A (l1 l1' l2 l2' : list A) : length l1 = length l1' -> l1 ++ l2 = l1' ++ l2' -> l1 = l1' /\ l2 = l2'.
  Proof.
    revert l1'. induction l1 as [|a l1 IH]; intros [|a' l1'] L E; try discriminate; auto.
    cbn [app length] in *. injection E as -> E. destruct (IH l1') as [-> ->]; auto.
  Qed.
  Lemma traffic_split l1 l2 : traffic (l1 ++ l2) = (traffic l1 + traffic l2)%nat.
  Proof. induction l1 as [|q l1 IH]; cbn [traffic fold_right app]; auto. fold (traffic (l1 ++ l2)). fold (traffic l1). lia. Qed.

  Variable Inv : Z -> M -> Prop.
  Variable ok : M -> Z -> Prop.
  Hypothesis A : comps_answer ops Inv ok.
  Variable b : Z.
  Hypothesis CA : comps_calm ops Inv ok b.
  Variable h : hub.
  Hypothesis HL : hlive Inv ok b h.
  Hypothesis ROOT : hs h = [new_hstate (map (c_start ops) (h_lms h)) (-1) 0 (h_bayes h)].
  Hypothesis MX : h_max h <= 2 ^ 31.
  Notation sext := (sext ops Inv ok b).

  Lemma asked_spells X s u : sext h X -> - 2 ^ 31 <= s -> spells X u (Z.max 0 s) ->
    (if to_int s <? 0 then 0 else to_int s) = Z.max 0 s.
  Proof.
    intros EX S0 Sp. destruct (spells_fresh ops Inv ok A b h HL ROOT X u _ EX Sp) as (x & Hx & I0 & _).
    apply nth_error_Some_lt in Hx. pose proof (wf_size _ (hl_wf _ _ _ _ (x_live _ _ _ _ _ _ EX))) as SZ.
    rewrite (x_max _ _ _ _ _ _ EX) in SZ. rewrite to_int_id by (unfold int32; lia). destruct (Z.ltb_spec s 0); lia.
  Qed.

  Lemma stands l rs s u : stands_for l rs s u -> forall X, forallb is_query_req l = true ->
    handle_all ops h l = Ok (rs, X) -> (forall c, In c u -> 0 <= c) -> Z.of_nat (1 + traffic l) < h_max h ->
    - 2 ^ 31 <= s /\ sext h X /\ spells X u (Z.max 0 s).
  Proof.
    assert (SX : forall l rs X, forallb is_query_req l = true -> handle_all ops h l = Ok (rs, X) -> Z.of_nat (1 + traffic l) < h_max h ->
                 sext h X /\ (length (hs X) <= 1 + traffic l)%nat).
    { intros l0 rs0 X Q E L. pose proof (handle_all_len _ _ _ _ _ E) as LN. rewrite ROOT in LN. cbn [length] in LN. split; [|lia].
      apply (sext_queries ops Inv ok A b CA h HL l0 h rs0 X (sext_refl ops Inv ok b h HL) Q E). lia. }
    induction 1 as [l rs s S0|l1 rs1 s u w l2 s' rs2 S IH Ll]; intros X Q E Pos L.
    - split; [lia|]. split; [apply (SX _ _ _ Q E L)|]. replace (Z.max 0 s) with 0 by lia. constructor.
    - destruct (SX _ _ _ Q E L) as [EX LX].
      rewrite forallb_app in Q. apply andb_prop in Q. destruct Q as [Q1 Q2]. cbn [forallb] in Q2. apply andb_prop in Q2. destruct Q2 as [_ Q2].
      rewrite traffic_split in L. cbn [traffic fold_right req_symbols req_context] in L. fold (traffic l2) in L.
      rewrite all_app in E. apply bind_Ok in E. destruct E as [[r1 X1] [E1 E]]. cbn [handle_all] in E.
      apply bind_Ok in E. destruct E as [[r2 X3] [E2 E]]. injection E as E E'. subst X3.
      apply bind_Ok in E2. destruct E2 as [[rep X2] [E2 E3]]. apply bind_Ok in E3. destruct E3 as [[r3 X3] [E3 E4]]. injection E4 as <- ->.
      pose proof (all_length _ _ _ _ E1) as L1. apply app_same_length in E; [|lia]. destruct E as [-> E]. injection E as -> ->.
      destruct (IH X1 Q1 E1) as (S0 & EX1 & Sp); [intros c Hc; apply Pos, in_or_app; auto|lia|].
      destruct (SX _ _ _ Q1 E1 ltac:(lia)) as [_ LX1].
      cbn [handle] in E2. unfold handle_get_next_state in E2. apply bind_Ok in E2. destruct E2 as [[r Xr] [E2 E4]]. injection E4 as <- <-.
      unfold hub_context in E2. rewrite (asked_spells X1 s u EX1 S0 Sp) in E2.
      destruct (spells_context ops Inv ok A b CA h HL ROOT w X1 u _ r Xr EX1 Sp) as (EXr & _ & Sr); auto; [intros c Hc; apply Pos, in_or_app; auto|lia|].
      destruct (spells_fresh ops Inv ok A b h HL ROOT Xr _ _ EXr Sr) as (x & _ & R0 & _).
      split; [lia|]. split; [exact EX|]. replace (Z.max 0 r) with r by lia.
      apply (sext_queries ops Inv ok A b CA h HL l2 Xr _ X) in E3; [|auto|auto|]. 2:{ cbn [req_symbols req_context] in *.
        rewrite traffic_split in LX. cbn [traffic fold_right req_symbols req_context] in LX. fold (traffic l2) in LX. lia. }
      destruct E3 as [_ G]. eapply spells_grows; eauto.
  Qed.

  (** The reply about a state that stands for [u]. *)
  Lemma fresh_reply l rs s u w X rep X' : stands_for l rs s u -> forallb is_query_req l = true ->
    handle_all ops h l = Ok (rs, X) -> (forall c, In c (u ++ w) -> 0 <= c) ->
    Z.of_nat (1 + traffic (l ++ [GetLMScoresReq s w])) < h_max h ->
    (length (h_weights h) <= length (h_lms h))%nat -> h_lms h <> [] ->
    handle ops X (GetLMScoresReq s w) = Ok (rep, X') ->
    exists ts l1 pss r Y, walks ops (u ++ w) (h_lms h) ts l1 /\ ((0 < h_bayes h)%nat -> all_give ops (u ++ w) (h_lms h) pss) /\
      hub_extract ops (fresh_hub h ts l1 pss) 0 = Ok (r, Y) /\
      rep = match r with Some sc => ScoresReply sc | None => InvalidArgument end.
  Proof.
    intros S Q E Pos L Lw Ne Eq. rewrite traffic_split in L. cbn [traffic fold_right req_symbols req_context] in L.
    destruct (stands l rs s u S X Q E) as (S0 & EX & Sp); [intros c Hc; apply Pos, in_or_app; auto|lia|].
    pose proof (handle_all_len _ _ _ _ _ E) as LN. rewrite ROOT in LN. cbn [length] in LN.
    cbn [handle] in Eq. unfold handle_get_lm_scores in Eq. apply bind_Ok in Eq. destruct Eq as [[r X1] [E1 E2]].
    apply bind_Ok in E2. destruct E2 as [[sc X2] [E2 E3]]. injection E3 as <- <-.
    unfold hub_context in E1. rewrite (asked_spells X s u EX S0 Sp) in E1.
    destruct (spells_context ops Inv ok A b CA h HL ROOT w X u _ r X1 EX Sp) as (EX1 & _ & S1); auto; [intros c Hc; apply Pos, in_or_app; auto|lia|].
    destruct (fresh_extract ops Inv ok A b h HL ROOT X1 _ r sc X2 EX1 S1 Lw Ne E2) as (ts & l1 & pss & Y & W1 & W2 & W3).
    exists ts, l1, pss, sc, Y. auto.
  Qed.

  (** ** The components one by one *)
  Lemma walks_nth w lms ts l1 : walks ops w lms ts l1 -> forall k m, nth_error lms k = Some m ->
    exists t m1, nth_error ts k = Some t /\ nth_error l1 k = Some m1 /\ c_walk ops m (c_start ops m) w = Ok (t, m1).
  Proof.
    induction 1 as [|m t m1 l ts l1 E H IH]; intros [|k] m0 Hk; try discriminate; cbn [nth_error] in *; [injection Hk as <-; eauto|auto].
  Qed.
  Lemma walks_length w lms ts l1 : walks ops w lms ts l1 -> length ts = length lms /\ length l1 = length lms.
  Proof. induction 1 as [|m t m1 l ts l1 E H [IH1 IH2]]; cbn; auto. Qed.
  Lemma walks_nth' w lms ts l1 : walks ops w lms ts l1 -> forall k m1, nth_error l1 k = Some m1 ->
    exists t m, nth_error ts k = Some t /\ nth_error lms k = Some m /\ c_walk ops m (c_start ops m) w = Ok (t, m1).
  Proof.
    induction 1 as [|m t m1 l ts l1 E H IH]; intros [|k] m0 Hk; try discriminate; cbn [nth_error] in *; [injection Hk as <-; eauto|auto].
  Qed.

  (** A mixture is refused only when a component refuses. *)
  Lemma mix_loop_none y ws : forall idx lms norm acc lms', mix_loop ops y idx ws lms norm acc = Ok (None, lms') ->
    exists k m m', nth_error lms k = Some m /\ c_extract ops m (hs_model y (idx + k)) = Ok (None, m').
  Proof.
    induction ws as [|v ws IH]; intros idx lms norm acc lms' E; cbn [mix_loop] in E; [discriminate|].
    destruct lms as [|m t]; [discriminate|]. apply bind_Ok in E. destruct E as [[r m'] [E1 E]]. destruct r as [sc|].
    - apply bind_Ok in E. destruct E as [[r t'] [E2 E]]. injection E as -> <-.
      destruct (IH _ _ _ _ _ E2) as (k & m2 & m3 & K1 & K2). exists (S k), m2, m3. split; auto.
      replace (idx + S k)%nat with (S idx + k)%nat by lia. auto.
    - exists 0%nat, m, m'. split; auto. rewrite Nat.add_0_r. auto.
  Qed.
End ServerFresh.
