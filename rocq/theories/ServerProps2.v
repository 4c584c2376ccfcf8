(** Properties C39, C40, C55-C57: what requests mean. *)
From Verif Require Import Base Field LmModel HubModel HubSpec HubProofs HubTrie HubQuery.
From Verif Require Import ServerModel ServerEvolve ServerQuery ServerUpdate.
From Verif Require Import BigramModel BigramComp BigramProps NgramModel HubProps.
Local Open Scope Z_scope.

(** In the statements below a server was started on a hub made by [initialize_models ops lms cfg], and
    [handle_all ops h0 l = Ok (rs, h)] says that [h] is that hub after the requests [l], which may be
    any requests in any order, and that they were replied to with [rs] (C58: this is all that a
    server with several threads can do). *)

(** A component model whose answers are changed by learning only: at any time, asking it something
    leaves the answers to everything else as they were. *)
Definition queries_keep_answers {F : ofield} {M : Type} (ops : comp_ops F M) (m : M) : Prop :=
  forall m1 m2, c_reach ops true m m1 -> c_reach ops false m1 m2 -> forall t,
    (forall c, ans (c_next ops m2 t c) = ans (c_next ops m1 t c)) /\
    (forall c, ans (c_score ops m2 t c) = ans (c_score ops m1 t c)) /\
    ans (c_extract ops m2 t) = ans (c_extract ops m1 t).

Lemma keep_stable {F M} (ops : comp_ops F M) lms : Forall (queries_keep_answers ops) lms ->
  forall m, In m lms -> forall m', c_reach ops true m m' -> query_stable ops m'.
Proof. intros Q m Hm m' R m2 R2. rewrite Forall_forall in Q. exact (Q m Hm m' m2 R R2). Qed.
Lemma keep_evolved {F M} (ops : comp_ops F M) lms lms' : Forall (queries_keep_answers ops) lms ->
  Forall2 (c_reach ops true) lms lms' -> Forall (query_stable ops) lms'.
Proof.
  intros Q V. induction V as [|m m' l l' R V IH]; constructor.
  - eapply keep_stable; [exact Q|left; reflexivity|auto].
  - apply IH. inversion Q; auto.
Qed.

(** The bigram and the character n-gram models are such components: asking does not change them. *)
Lemma unchanged_keep {F M} (ops : comp_ops F M) :
  (forall m t c a m', c_next ops m t c = Ok (a, m') -> m' = m) ->
  (forall m t c a m', c_score ops m t c = Ok (a, m') -> m' = m) ->
  (forall m t a m', c_extract ops m t = Ok (a, m') -> m' = m) ->
  forall m, queries_keep_answers ops m.
Proof.
  intros A B C m m1 m2 _ R t. assert (X : m2 = m1); [|subst; auto].
  induction R as [|m3 m4 R IH S]; auto. subst m3. destruct S; eauto. discriminate.
Qed.
Lemma bigram_queries_keep (F : ofield) m : queries_keep_answers (bigram_ops (F := F)) m.
Proof.
  apply unchanged_keep; cbn [bigram_ops c_next c_score c_extract].
  - intros m0 t c a m' E. apply bind_Ok in E. destruct E as [r [_ E]]. injection E as _ <-. auto.
  - intros m0 t c a m' E. apply bind_Ok in E. destruct E as [r [_ E]]. destruct r; [injection E as _ <-; auto|discriminate].
  - intros m0 t a m' E. apply bind_Ok in E. destruct E as [[x y] [_ E]]. apply bind_Ok in E. destruct E as [e [_ E]]. injection E as _ <-. auto.
Qed.
Lemma ngram_queries_keep (F : ofield) m : queries_keep_answers (ngram_ops (F := F)) m.
Proof.
  apply unchanged_keep; cbn [ngram_ops c_next c_score c_extract].
  - intros m0 t c a m' E. apply bind_Ok in E. destruct E as [r [_ E]]. injection E as _ <-. auto.
  - intros m0 t c a m' E. apply bind_Ok in E. destruct E as [r [_ E]]. injection E as _ <-. auto.
  - intros m0 t a m' E. apply bind_Ok in E. destruct E as [r [_ E]]. apply bind_Ok in E. destruct E as [p [_ E]]. injection E as _ <-. auto.
Qed.

(** The state a query is about: the request's state, or the start state when it is negative. *)
Definition live_state {F M} (h : hub F M) (s : Z) : Prop := s < Z.of_nat (length (hs h)).
Definition int32 (s : Z) : Prop := - 2 ^ 31 <= s < 2 ^ 31.
Lemma to_int_id s : int32 s -> to_int s = s.
Proof. unfold int32, to_int. intros H. rewrite Z.mod_small; lia. Qed.

(** * C40 *)

(** Queries do not change scores: if no state had to be recycled, then after any further queries the
    scores for a state that was there, and any context, are what they were. *)
Theorem C40_queries_keep_scores_partial :
  forall (F : ofield) (M : Type) (ops : comp_ops F M) lms cfg h0 l rs0 h s w rep h1 qs rs h2,
  initialize_models ops lms cfg = Ok h0 -> Forall (queries_keep_answers ops) lms ->
  handle_all ops h0 l = Ok (rs0, h) ->
  int32 s -> live_state h s ->
  handle ops h (GetLMScoresReq s w) = Ok (rep, h1) ->
  forallb is_query_req qs = true -> handle_all ops h qs = Ok (rs, h2) ->
  Z.of_nat (length (hs h2) + length w) < h_max h2 ->
  exists h3, handle ops h2 (GetLMScoresReq s w) = Ok (rep, h3).
Proof.
  intros F M ops lms cfg h0 l rs0 h s w rep h1 qs rs h2 Hi Q Hl I Hs E Iq Hq L.
  destruct (initialize_ok _ _ _ _ Hi) as (W0 & _ & El & _).
  destruct (handle_all_ok _ _ _ _ _ W0 Hl) as (W & _ & V). rewrite El in V.
  destruct (queries_wf _ _ _ _ _ W Iq Hq) as [W2 C2].
  eapply scores_after_queries with (h := h); eauto.
  - eapply keep_evolved; eauto.
  - unfold asked_state, live_state in *. cbn [req_state]. rewrite to_int_id by auto. pose proof (wf_nonempty _ W). destruct (Z.ltb_spec s 0); lia.
  - assert (h_max h2 = h_max h) by apply C2. lia.
Qed.

(** The same question, whenever it is asked again with only questions in between, gets the same answer:
    the same scores or the same state. *)
Theorem C40_repeated_query_partial :
  forall (F : ofield) (M : Type) (ops : comp_ops F M) lms cfg h0 l rs0 h q rep h1 qs rs h2,
  initialize_models ops lms cfg = Ok h0 -> Forall (queries_keep_answers ops) lms ->
  handle_all ops h0 l = Ok (rs0, h) ->
  is_query_req q = true -> int32 (req_state q) -> live_state h (req_state q) ->
  handle ops h q = Ok (rep, h1) ->
  forallb is_query_req qs = true -> handle_all ops h1 qs = Ok (rs, h2) ->
  Z.of_nat (length (hs h2) + length (req_context q)) < h_max h2 ->
  exists h3, handle ops h2 q = Ok (rep, h3).
Proof.
  intros F M ops lms cfg h0 l rs0 h q rep h1 qs rs h2 Hi Q Hl Iq I Hs E Iqs Hq L.
  destruct (initialize_ok _ _ _ _ Hi) as (W0 & _ & El & _).
  destruct (handle_all_ok _ _ _ _ _ W0 Hl) as (W & _ & V). rewrite El in V.
  destruct (query_wf _ _ _ _ _ W Iq E) as [W1 C1]. destruct (queries_wf _ _ _ _ _ W1 Iqs Hq) as [W2 C2].
  eapply repeat_after_queries with (h := h); eauto.
  - eapply keep_evolved; eauto.
  - unfold asked_state, live_state in *. rewrite to_int_id by auto. pose proof (wf_nonempty _ W). destruct (Z.ltb_spec (req_state q) 0); lia.
  - assert (h_max h1 = h_max h) by apply C1. assert (h_max h2 = h_max h1) by apply C2. lia.
Qed.

(** ** A concrete server, on the hub of two bigram models *)
Definition replies (bayes mx : Z) (l : list request) : outcome (list (reply Qc_field)) :=
  let* h0 := two_hub bayes mx in let* (rs, _) := handle_all qops h0 l in Ok rs.
Definition last_reply (bayes mx : Z) (l : list request) : outcome (reply Qc_field) :=
  let* rs := replies bayes mx l in Ok (List.last rs InvalidArgument).
Definition entries_of (r : reply Qc_field) : list (str * car Qc_field) :=
  match r with ScoresReply sc => map (fun '(k, v) => (k, match v with Val p => p | NaN => f0 end)) (sc_entries sc) | _ => [] end.
Definition last_entries (bayes mx : Z) (l : list request) : outcome (list (str * car Qc_field)) :=
  let* r := last_reply bayes mx l in Ok (entries_of r).

Lemma two_queries_keep : Forall (queries_keep_answers qops) [ab_loaded; bc_loaded].
Proof. constructor; [apply bigram_queries_keep|]. constructor; [apply bigram_queries_keep|constructor]. Qed.

(** The hypotheses of both theorems are met, with learning before and queries in between. *)
Example C40_nonvacuous :
  exists h0 h rep h1 rs h2,
  initialize_models qops [ab_loaded; bc_loaded] (two_config 1 20) = Ok h0 /\
  (exists rs0, handle_all qops h0 [UpdateLMScoresReq 0 [98; 97; 98] 3] = Ok (rs0, h)) /\
  int32 0 /\ live_state h 0 /\
  handle qops h (GetLMScoresReq 0 [97; 98]) = Ok (rep, h1) /\
  handle_all qops h1 [GetLMScoresReq 0 [98]; GetNextStateReq 0 [98; 98]; GetLMScoresReq 2 [97]] = Ok (rs, h2) /\
  Z.of_nat (length (hs h2) + 2) < h_max h2 /\ (length (hs h) < length (hs h1) < length (hs h2))%nat /\ rep <> InvalidArgument.
Proof.
  destruct (is_ok_ex (two_hub 1 20)) as [h0 E0]; [vmr|].
  destruct (is_ok_ex (let* h0 := two_hub 1 20 in handle_all qops h0 [UpdateLMScoresReq 0 [98; 97; 98] 3])) as [[rs0 h] E1]; [vmr|].
  destruct (is_ok_ex (let* h0 := two_hub 1 20 in let* (_, h) := handle_all qops h0 [UpdateLMScoresReq 0 [98; 97; 98] 3] in
     handle qops h (GetLMScoresReq 0 [97; 98]))) as [[rep h1] E2]; [vmr|].
  destruct (is_ok_ex (let* h0 := two_hub 1 20 in let* (_, h) := handle_all qops h0 [UpdateLMScoresReq 0 [98; 97; 98] 3] in
     let* (_, h1) := handle qops h (GetLMScoresReq 0 [97; 98]) in
     handle_all qops h1 [GetLMScoresReq 0 [98]; GetNextStateReq 0 [98; 98]; GetLMScoresReq 2 [97]])) as [[rs h2] E3]; [vmr|].
  assert (X : (let* h0 := two_hub 1 20 in let* (_, h) := handle_all qops h0 [UpdateLMScoresReq 0 [98; 97; 98] 3] in
     let* (rep, h1) := handle qops h (GetLMScoresReq 0 [97; 98]) in
     let* (_, h2) := handle_all qops h1 [GetLMScoresReq 0 [98]; GetNextStateReq 0 [98; 98]; GetLMScoresReq 2 [97]] in
     Ok (match rep with ScoresReply _ => true | _ => false end, length (hs h), length (hs h1), length (hs h2), h_max h2)) = Ok (true, 4%nat, 6%nat, 8%nat, 20)) by vmr.
  rewrite E0 in E1, E2, E3, X. cbn [bind] in E1, E2, E3, X. rewrite E1 in E2, E3, X. cbn [bind] in E2, E3, X.
  rewrite E2 in E3, X. cbn [bind] in E3, X. rewrite E3 in X. cbn [bind] in X. injection X as X1 X2 X3 X4 X5.
  exists h0, h, rep, h1, rs, h2. split; [exact E0|]. split; [eauto|]. unfold live_state, int32. rewrite X2, X3, X4, X5.
  split; [lia|]. split; [lia|]. split; auto. split; auto. split; [lia|]. split; [lia|]. intros ->. discriminate.
Qed.

(** Recycling refutes it for a full pool: of ten states, a client was given state 3 for "a"; after one
    query of another client, with a long context, state 3 means something else and has other scores. *)
Theorem C40_recycling_refuted :
  let learned := UpdateLMScoresReq 0 [98; 97] 3 in
  let mine := GetNextStateReq 0 [97] in
  let other := GetNextStateReq 0 [98; 98; 98; 98; 98; 98; 98; 98; 98; 98; 98] in
  last_reply 0 10 [learned; mine] = Ok (StateReply 3) /\
  last_entries 0 10 [learned; mine; GetLMScoresReq 3 []] =
    Ok [([0], q 5 18); ([97], q 2 9); ([98], q 4 9); ([99], q 1 18)] /\
  last_entries 0 10 [learned; mine; other; GetLMScoresReq 3 []] =
    Ok [([0], q 2 9); ([97], q 4 9); ([98], q 2 9); ([99], q 1 9)].
Proof. cbv zeta. repeat split; vmr. Qed.

(** A query before an update refutes it for later updates, if the mixture is Bayesian: the query leaves
    a state whose history the update does not refresh, and the scores after the update are not those
    a server gives that was not asked. *)
Theorem C40_stale_history_refuted :
  let learned := UpdateLMScoresReq 0 [98; 97; 98] 3 in
  let asked := GetLMScoresReq 0 [97; 98] in
  last_entries 1 20 [learned; asked] =
    Ok [([0], q 13 57); ([97], q 8 19); ([98], q 13 57); ([99], q 7 57)] /\
  last_entries 1 20 [asked; learned; asked] =
    Ok [([0], q 2 9); ([97], q 4 9); ([98], q 2 9); ([99], q 1 9)].
Proof. cbv zeta. repeat split; vmr. Qed.

(** * C39 *)

(** For states that fit 32 bits, what is asked is what the hub is asked, about that state: the state
    reached from it, the scores there, and learning from it. *)
Theorem C39_state_used_partial :
  forall (F : ofield) (M : Type) (ops : comp_ops F M) (h : hub F M) s w n, int32 s ->
  (forall t h1, hub_context ops h w s = Ok (t, h1) ->
     handle ops h (GetNextStateReq s w) = Ok (StateReply t, h1) /\
     (forall sc h2, hub_extract ops h1 t = Ok (Some sc, h2) -> handle ops h (GetLMScoresReq s w) = Ok (ScoresReply sc, h2)) /\
     (forall h2, hub_extract ops h1 t = Ok (None, h2) -> handle ops h (GetLMScoresReq s w) = Ok (InvalidArgument, h2))) /\
  (forall rep h', handle ops h (UpdateLMScoresReq s w n) = Ok (rep, h') -> exists h1 ok h2,
     hub_update ops h1 s w n = Ok (ok, h2) /\ (ok = false -> rep = InvalidArgument)).
Proof.
  intros F M ops h s w n I. split.
  - intros t h1 E. cbn [handle]. unfold handle_get_next_state, handle_get_lm_scores. rewrite to_int_id, E by auto. cbn [bind].
    split; auto. split; intros; rewrite H; reflexivity.
  - intros rep h' E. cbn [handle] in E. unfold handle_update_lm_scores in E. rewrite to_int_id in E by auto.
    apply bind_Ok in E. destruct E as [[r h1] [_ E]]. apply bind_Ok in E. destruct E as [[ok h2] [E2 E]].
    exists h1, ok, h2. split; auto. intros ->. injection E as <- _. auto.
Qed.

(** Beyond 32 bits, states are confused: a state 2^32 higher is taken for the same, by every request, on
    every hub. *)
Theorem C39_states_confused_refuted :
  forall (F : ofield) (M : Type) (ops : comp_ops F M) (h : hub F M) s w n,
  handle ops h (GetNextStateReq (s + 2 ^ 32) w) = handle ops h (GetNextStateReq s w) /\
  handle ops h (GetLMScoresReq (s + 2 ^ 32) w) = handle ops h (GetLMScoresReq s w) /\
  handle ops h (UpdateLMScoresReq (s + 2 ^ 32) w n) = handle ops h (UpdateLMScoresReq s w n).
Proof.
  intros F M ops h s w n. assert (X : to_int (s + 2 ^ 32) = to_int s).
  { unfold to_int. replace (s + 2 ^ 32 + 2 ^ 31) with (s + 2 ^ 31 + 1 * 2 ^ 32) by lia. rewrite Z.mod_add by lia. reflexivity. }
  cbn [handle]. unfold handle_get_next_state, handle_get_lm_scores, handle_update_lm_scores. rewrite X. auto.
Qed.
Example C39_example :
  last_entries 0 10 [GetLMScoresReq (2 ^ 32) [97]] = last_entries 0 10 [GetLMScoresReq 0 [97]] /\
  last_reply 0 10 [GetNextStateReq (2 ^ 32) []] = Ok (StateReply 0) /\
  is_ok (last_reply 0 10 [GetLMScoresReq 0 [97]]) = true.
Proof. cbv zeta. repeat split; vmr. Qed.

(** * C55 *)

(** Scores of a state the server never gave out, without a context: refused, and nothing changes. *)
Theorem C55_scores_of_unknown_state_partial :
  forall (F : ofield) (M : Type) (ops : comp_ops F M) (h : hub F M) s,
  int32 s -> 0 <= s -> ~ live_state h s ->
  handle ops h (GetLMScoresReq s []) = Ok (InvalidArgument, h).
Proof.
  intros F M ops h s I S0 NL. cbn [handle]. unfold handle_get_lm_scores. rewrite to_int_id by auto.
  unfold hub_context. destruct (Z.ltb_spec s 0); [lia|]. cbn [hub_context_loop bind]. unfold hub_extract, in_range, live_state in *.
  destruct (Z.leb_spec 0 s); [|lia]. destruct (Z.ltb_spec s (Z.of_nat (length (hs h)))); [lia|]. reflexivity.
Qed.

(** An update for a state that is not there (negative, or beyond the states there are even with those
    the update itself makes) is refused, and no component learns anything. *)
Theorem C55_update_of_unknown_state_partial :
  forall (F : ofield) (M : Type) (ops : comp_ops F M) (h : hub F M) s w n rep h',
  int32 s -> (s < 0 \/ Z.of_nat (length (hs h) + length w) <= s) ->
  handle ops h (UpdateLMScoresReq s w n) = Ok (rep, h') ->
  rep = InvalidArgument /\ Forall2 (c_reach ops false) (h_lms h) (h_lms h').
Proof.
  intros F M ops h s w n rep h' I D E. cbn [handle] in E. unfold handle_update_lm_scores in E. rewrite to_int_id in E by auto.
  apply bind_Ok in E. destruct E as [[r h1] [E1 E]]. apply bind_Ok in E. destruct E as [[ok h2] [E2 E]].
  pose proof (next_states_len _ _ _ _ _ _ E1) as L.
  assert (IR : in_range h1 s = false) by (unfold in_range; destruct D; lia).
  pose proof (update_refused _ _ _ _ _ _ _ IR E2) as ->. injection E as <- <-. split; auto.
  eapply evolve_trans; [eapply next_states_evolve; exact E1|]. eapply update_evolve; [|exact E2]. auto.
Qed.
Example C55_update_nonvacuous :
  replies 0 10 [UpdateLMScoresReq (-1) [98; 97] 3] = Ok [InvalidArgument] /\
  replies 0 10 [UpdateLMScoresReq 77 [98; 97] 3] = Ok [InvalidArgument] /\
  replies 0 10 [GetNextStateReq 0 [97]; GetLMScoresReq 2 []] = Ok [StateReply 1; InvalidArgument].
Proof. cbv zeta. repeat split; vmr. Qed.

(** With a context the unknown state is not refused: it is taken for the start state. *)
Theorem C55_unknown_state_accepted_refuted :
  forall (F : ofield) (M : Type) (ops : comp_ops F M) (h : hub F M) s c w,
  int32 s -> ~ (0 <= s /\ live_state h s) -> (1 <= length (hs h))%nat ->
  handle ops h (GetLMScoresReq s (c :: w)) = handle ops h (GetLMScoresReq 0 (c :: w)).
Proof.
  intros F M ops h s c w I NL N0. cbn [handle]. unfold handle_get_lm_scores. rewrite !to_int_id by (auto; unfold int32; lia).
  assert (X : hub_context ops h (c :: w) s = hub_context ops h (c :: w) 0); [|rewrite X; auto].
  unfold hub_context. destruct (Z.ltb_spec s 0); auto. cbn [hub_context_loop Z.ltb Z.compare].
  rewrite (hub_next_norm ops h s); auto. unfold in_range, live_state in *. lia.
Qed.
Example C55_accepted_example :
  is_ok (last_reply 0 10 [GetLMScoresReq 77 [97]]) = true /\
  last_entries 0 10 [GetLMScoresReq 77 [97]] = last_entries 0 10 [GetLMScoresReq 0 [97]] /\
  last_entries 0 10 [GetLMScoresReq (-5) []] = last_entries 0 10 [GetLMScoresReq 0 []].
Proof. cbv zeta. repeat split; vmr. Qed.

(** An update for the first state that does not exist yet is accepted and learned: making the states for
    its symbols makes that state, too. *)
Theorem C55_update_accepted_refuted :
  replies 0 10 [GetNextStateReq 0 [97]; GetLMScoresReq 2 []] = Ok [StateReply 1; InvalidArgument] /\
  last_entries 0 10 [GetNextStateReq 0 [97]; UpdateLMScoresReq 2 [97; 98] 3; GetLMScoresReq 0 [97]] =
    Ok [([0], q 1 6); ([97], q 1 9); ([98], q 2 3); ([99], q 1 18)] /\
  last_entries 0 10 [GetNextStateReq 0 [97]; GetLMScoresReq 0 [97]] =
    Ok [([0], q 1 3); ([97], q 2 9); ([98], q 1 3); ([99], q 1 9)].
Proof. cbv zeta. repeat split; vmr. Qed.

(** With a Bayesian mixture, an update for a state that does not exist, or with an invalid symbol, reads
    outside the states (undefined behaviour). *)
Theorem C55_update_out_of_bounds_refuted :
  replies 1 10 [UpdateLMScoresReq 77 [98; 97] 3] = UB /\
  replies 1 10 [UpdateLMScoresReq (-1) [98; 97] 3] = UB /\
  replies 1 10 [UpdateLMScoresReq 0 [98; -7; 97] 3] = UB.
Proof. cbv zeta. repeat split; vmr. Qed.

(** * C56 *)

(** Counts that are not positive and symbols that are not characters are accepted, against service.proto. *)
Theorem C56_invalid_update_accepted_refuted :
  let accepted l := match last_reply 0 10 l with Ok (ScoresReply _) => true | _ => false end in
  accepted [UpdateLMScoresReq 0 [98; 97] 0] = true /\
  accepted [UpdateLMScoresReq 0 [98; 97] (-3)] = true /\
  accepted [UpdateLMScoresReq 0 [98; -7; 97] 3] = true /\
  accepted [UpdateLMScoresReq 0 [1114112] 3] = true.
Proof. cbv zeta. repeat split; vmr. Qed.

(** * C57 *)

(** The reply to an update is the scores after the symbols that were learned: asking for them next, from
    the same state, gives the same reply. *)
Theorem C57_update_reply :
  forall (F : ofield) (M : Type) (ops : comp_ops F M) lms cfg h0 l rs0 h s w n rep h1,
  initialize_models ops lms cfg = Ok h0 -> Forall (queries_keep_answers ops) lms -> Forall (scores_total ops) lms ->
  handle_all ops h0 l = Ok (rs0, h) ->
  int32 s -> 0 <= s -> live_state h s -> (forall c, In c w -> 0 <= c) ->
  handle ops h (UpdateLMScoresReq s w n) = Ok (rep, h1) -> rep <> InvalidArgument ->
  Z.of_nat (length (hs h1)) < h_max h1 ->
  exists h2, handle ops h1 (GetLMScoresReq s w) = Ok (rep, h2).
Proof.
  intros F M ops lms cfg h0 l rs0 h s w n rep h1 Hi Q ST Hl I S0 Hs N E NI L.
  destruct (initialize_ok _ _ _ _ Hi) as (W0 & _ & El & _).
  assert (T0 : trie ops true false lms h0 [[]]) by (apply (trie_init ops true false lms cfg h0); auto; discriminate).
  destruct (handle_all_ok _ _ _ _ _ W0 Hl) as (W & C & V). rewrite El in V.
  destruct (handle_ok _ _ _ _ _ W E) as (W1 & C1 & V1).
  assert (M1 : h_max h1 = h_max h) by apply C1. assert (M0 : h_max h = h_max h0) by apply C.
  assert (L1 : (length (hs h) <= length (hs h1))%nat) by apply C1.
  destruct (handle_all_run _ _ _ _ _ Hl) as [ol Hr].
  destruct (trie_run ops true false ol _ _ _ _ W0 T0 (or_introl eq_refl) Hr) as (ctxs & T & _); [lia|].
  eapply (update_reply ops lms h ctxs s w n); eauto.
  - intros m' Hm m2 R. 
    assert (K : exists m0, In m0 lms /\ c_reach ops true m0 m').
    { clear - V Hm. induction V as [|a b l l' R V IH]; [destruct Hm|]. destruct Hm as [<-|Hm]; [exists a; split; [left|]; auto|].
      destruct (IH Hm) as (m0 & A & B). exists m0. split; [right|]; auto. }
    destruct K as (m0 & Hm0 & R0). eapply keep_stable; [exact Q|exact Hm0|]. eapply reach_trans; eauto.
  - rewrite to_int_id by auto. unfold live_state in Hs. lia.
  - lia.
Qed.
Example C57_example :
  let expected := [([0], q 2 9); ([97], q 4 9); ([98], q 2 9); ([99], q 1 9)] in
  last_entries 1 20 [GetNextStateReq 0 [97; 98]; UpdateLMScoresReq 0 [98; 97; 98] 3] = Ok expected /\
  last_entries 1 20 [GetNextStateReq 0 [97; 98]; UpdateLMScoresReq 0 [98; 97; 98] 3; GetLMScoresReq 0 [98; 97; 98]] = Ok expected /\
  last_entries 1 20 [GetNextStateReq 0 [97; 98]; GetLMScoresReq 0 [98; 97; 98]] = Ok [([0], q 1 3); ([97], q 2 9); ([98], q 1 3); ([99], q 1 9)].
Proof. cbv zeta. repeat split; vmr. Qed.

Print Assumptions C40_queries_keep_scores_partial.
Print Assumptions C40_repeated_query_partial.
Print Assumptions C40_recycling_refuted.
Print Assumptions C40_stale_history_refuted.
Print Assumptions C39_state_used_partial.
Print Assumptions C39_states_confused_refuted.
Print Assumptions C55_scores_of_unknown_state_partial.
Print Assumptions C55_update_of_unknown_state_partial.
Print Assumptions C55_unknown_state_accepted_refuted.
Print Assumptions C55_update_accepted_refuted.
Print Assumptions C55_update_out_of_bounds_refuted.
Print Assumptions C56_invalid_update_accepted_refuted.
Print Assumptions C57_update_reply.
