(** Properties C10-C18: the model hub. *)
From Verif Require Import Base Field LmModel HubModel HubSpec HubProofs HubTrie HubLearn HubMix HubWrap.
From Verif Require Import TextModel BigramModel BigramProofs BigramReadProofs BigramProps BigramComp.
From Coq Require Import Field String.
Close Scope string_scope.
Open Scope list_scope.
Local Notation length := List.length.
Local Open Scope Z_scope.

(** In the statements below, [initialize_models ops lms cfg = Ok h0] says that a hub was made from
    component models [lms] and a configuration, and [hub_run ops h0 l = Ok h] that [h] is the hub
    after the arbitrary history [l] of calls with arbitrary arguments.  [ops] is the behaviour of
    the components: any implementation of the LanguageModel interface. *)

(** ** A concrete hub: two bigram models, over "ab" and over "bc". *)
Definition bc_vocab : bytes := bstr "0
98
99
".
Definition ab_loaded : bigram := match ab_model with Ok m => m | _ => Bigram [] [] [] [] end.
Definition bc_loaded : bigram :=
  match bigram_read (Some (Some bc_vocab)) None with Ok m => m | _ => Bigram [] [] [] [] end.
Definition qops : comp_ops Qc_field bigram := bigram_ops.
Definition two_config (bayes mx : Z) : @hub_config Qc_field :=
  HubConfig MixInterpolation [q 1 2; q 1 4] bayes mx.
Definition two_hub (bayes mx : Z) : outcome (hub Qc_field bigram) :=
  initialize_models qops [ab_loaded; bc_loaded] (two_config bayes mx).

Lemma ab_read : bigram_read (Some (Some ab_vocab)) None = Ok ab_loaded.
Proof. vmr. Qed.
Lemma bc_read : bigram_read (Some (Some bc_vocab)) None = Ok bc_loaded.
Proof. vmr. Qed.

(** Every loaded bigram model is a component as the theorems below want them. *)
Lemma loaded_component (F : ofield) vf cf m :
  bigram_read vf cf = Ok m ->
  (forall learning, repeatable (bigram_ops (F := F)) learning m) /\
  scores_total (bigram_ops (F := F)) m /\ repeatable_scores (bigram_ops (F := F)) false m.
Proof.
  intros H. destruct (read_loaded vf cf m H) as [v [C [R _]]].
  split; [intros; eapply bigram_repeatable; eauto|].
  split; [eapply bigram_scores_total; eauto|eapply bigram_repeatable_scores; eauto].
Qed.
Lemma two_components :
  Forall (fun m => (forall learning, repeatable qops learning m) /\ scores_total qops m /\
                   repeatable_scores qops false m) [ab_loaded; bc_loaded].
Proof.
  constructor; [exact (loaded_component _ _ _ _ ab_read)|].
  constructor; [exact (loaded_component _ _ _ _ bc_read)|constructor].
Qed.

(** * C10 *)

(** The pool holds at least one state and never more than configured, whatever is called. *)
Theorem C10_state_pool_is_bounded :
  forall (F : ofield) (M : Type) (ops : comp_ops F M) lms cfg h0 l h,
  initialize_models ops lms cfg = Ok h0 -> hub_run ops h0 l = Ok h ->
  1 <= Z.of_nat (length (hs h)) <=
  (if cfg_max_states cfg <? 10 then 10000 else cfg_max_states cfg).
Proof.
  intros F M ops lms cfg h0 l h Hi Hr.
  destruct (initialize_ok _ _ _ _ Hi) as (W & _ & _ & _ & A & _).
  destruct (hub_run_wf _ _ _ _ W Hr) as [W' [C1 _]].
  pose proof (wf_nonempty _ W'). pose proof (wf_size _ W'). rewrite C1, A in H0.
  unfold kMaxHubStates in H0. lia.
Qed.
Print Assumptions C10_state_pool_is_bounded.

(** NextState with a non-negative symbol, and ContextState with a non-empty context, return live
    states: ids below the configured maximum that every later call accepts. *)
Theorem C10_returned_states_are_live :
  forall (F : ofield) (M : Type) (ops : comp_ops F M) lms cfg h0 l h,
  initialize_models ops lms cfg = Ok h0 -> hub_run ops h0 l = Ok h ->
  (forall s c r h', 0 <= c -> hub_next ops h s c = Ok (r, h') -> in_range h' r = true) /\
  (forall w s r h', w <> [] -> hub_context ops h w s = Ok (r, h') -> in_range h' r = true) /\
  (forall r l' h', in_range h r = true -> hub_run ops h l' = Ok h' -> in_range h' r = true) /\
  (forall r, in_range h r = true -> 0 <= r < (if cfg_max_states cfg <? 10 then 10000 else cfg_max_states cfg)).
Proof.
  intros F M ops lms cfg h0 l h Hi Hr.
  pose proof (C10_state_pool_is_bounded F M ops lms cfg h0 l h Hi Hr) as HB.
  destruct (initialize_ok _ _ _ _ Hi) as (W & _).
  destruct (hub_run_wf _ _ _ _ W Hr) as [W' _]. unfold in_range.
  split; [|split; [|split]].
  - intros s c r h' Hc E. destruct (hub_next_wf _ _ _ _ _ _ W' E) as (_ & _ & R1 & R2).
    specialize (R2 Hc). lia.
  - intros w s r h' Hw E. destruct (hub_context_wf _ _ _ _ _ _ W' E) as (_ & _ & R1 & R2).
    specialize (R2 (or_introl Hw)). lia.
  - intros r l' h' Hin E. destruct (hub_run_wf _ _ _ _ W' E) as [_ [_ [_ [_ [_ S]]]]]. lia.
  - intros r Hin. lia.
Qed.
Print Assumptions C10_returned_states_are_live.

Example C10_example :
  (let* h0 := two_hub 0 10 in
   let* (r1, h1) := hub_context qops h0 [97; 98; 97; 98; 97; 98; 97; 98; 97] 0 in
   let* (r2, h2) := hub_context qops h1 [98; 98; 98; 97] 4 in
   Ok (r1, r2, length (hs h2))) = Ok (9, 4, 10%nat).
Proof. vmr. Qed.

(** An empty context is answered without looking at the state (the service's GetNextState with an
    empty context echoes any state). *)
Theorem C10_empty_context_refuted :
  exists h0, two_hub 0 10 = Ok h0 /\ hub_context qops h0 [] 123456 = Ok (123456, h0) /\
             in_range h0 123456 = false.
Proof. destruct (is_ok_ex (two_hub 0 10)) as [h0 E]; [vmr|]. exists h0.
  split; auto. split; [reflexivity|]. unfold in_range.
  unfold two_hub in E. destruct (initialize_ok _ _ _ _ E) as (_ & A & _). rewrite A. reflexivity. Qed.
Print Assumptions C10_empty_context_refuted.

(** * C11 *)

(** As long as the pool is not full, two walks from the start state, at any two times of a history
    with any calls before and in between, end in the same state exactly if they spell the same
    symbols; and StateSym of that state is the last of them. *)
Theorem C11_states_are_contexts :
  forall (F : ofield) (M : Type) (ops : comp_ops F M) lms cfg h0 l h w1 r1 h1 l' h2 w2 r2 h3,
  initialize_models ops lms cfg = Ok h0 -> Forall (scores_total ops) lms ->
  hub_run ops h0 l = Ok h ->
  (forall c, In c w1 -> 0 <= c) -> (forall c, In c w2 -> 0 <= c) ->
  hub_context ops h w1 0 = Ok (r1, h1) -> hub_run ops h1 l' = Ok h2 ->
  hub_context ops h2 w2 0 = Ok (r2, h3) ->
  Z.of_nat (length (hs h3)) < h_max h3 ->
  (r1 = r2 <-> w1 = w2) /\ hub_state_sym h3 r1 = Ok (List.last w1 0).
Proof.
  intros F M ops lms cfg h0 l h w1 r1 h1 l' h2 w2 r2 h3 Hi HT Hr N1 N2 E1 Hr' E2 Hsz.
  destruct (initialize_ok _ _ _ _ Hi) as (W0 & _).
  assert (T0 : trie ops true false lms h0 [[]]) by (apply (trie_init ops true false lms cfg h0); auto; discriminate).
  destruct (hub_run_wf _ _ _ _ W0 Hr) as [W C0].
  unfold hub_context in E1, E2. simpl in E1, E2.
  destruct (hub_context_loop_wf ops _ _ _ _ _ W (Z.le_refl 0) E1) as (W1 & C1 & R1 & R1').
  destruct (hub_run_wf _ _ _ _ W1 Hr') as [W2 C2].
  destruct (hub_context_loop_wf ops _ _ _ _ _ W2 (Z.le_refl 0) E2) as (W3 & C3 & R2 & R2').
  unfold same_config in *. destruct C0 as (A0 & _ & _ & _ & B0), C1 as (A1 & _ & _ & _ & B1),
    C2 as (A2 & _ & _ & _ & B2), C3 as (A3 & _ & _ & _ & B3).
  rewrite A3, A2, A1, A0 in Hsz.
  destruct (trie_run ops true false l _ _ _ _ W0 T0 (or_introl eq_refl) Hr) as (c1 & T1 & X1); [lia|].
  destruct (trie_context_loop ops true false w1 lms h c1 0 [] r1 h1) as (c2 & T2 & X2 & P1 & P2); auto; try lia.
  { pose proof (t_root _ _ _ _ _ _ T1) as Hroot. apply (ctx_at_nth c1 0); [lia|exact Hroot]. }
  destruct (trie_run ops true false l' _ _ _ _ W1 T2 (or_introl eq_refl) Hr') as (c3 & T3 & X3); [lia|].
  destruct (trie_context_loop ops true false w2 lms h2 c3 0 [] r2 h3) as (c4 & T4 & X4 & Q1 & Q2); auto; try lia.
  { pose proof (t_root _ _ _ _ _ _ T3) as Hroot. apply (ctx_at_nth c3 0); [lia|exact Hroot]. }
  simpl in P2, Q2.
  assert (I1 : r1 < Z.of_nat (length (hs h1))) by (apply R1'; right; pose proof (wf_nonempty _ W); lia).
  assert (I2 : r2 < Z.of_nat (length (hs h3))) by (apply R2'; right; pose proof (wf_nonempty _ W2); lia).
  assert (K1 : nth_error c2 (Z.to_nat r1) = Some w1).
  { unfold ctx_at in P2. rewrite (t_len _ _ _ _ _ _ T2) in P2.
    destruct ((0 <=? r1) && (r1 <? Z.of_nat (length (hs h1)))) eqn:E; [auto|lia]. }
  assert (K2 : nth_error c4 (Z.to_nat r2) = Some w2).
  { unfold ctx_at in Q2. rewrite (t_len _ _ _ _ _ _ T4) in Q2.
    destruct ((0 <=? r2) && (r2 <? Z.of_nat (length (hs h3)))) eqn:E; [auto|lia]. }
  assert (K1' : nth_error c4 (Z.to_nat r1) = Some w1).
  { eapply extends_nth; [exact X4|]. eapply extends_nth; [exact X3|exact K1]. }
  split.
  - split.
    + intros ->. congruence.
    + intros E. subst w2. pose proof (t_nodup _ _ _ _ _ _ T4) as ND. rewrite NoDup_nth_error in ND.
      assert (Z.to_nat r1 = Z.to_nat r2); [|lia].
      apply ND; [eapply nth_error_Some_lt; eauto|congruence].
  - unfold hub_state_sym, in_range.
    assert (Hlt : (Z.to_nat r1 < length (hs h3))%nat).
    { rewrite <- (t_len _ _ _ _ _ _ T4). eapply nth_error_Some_lt; eauto. }
    destruct (vgetZ_range _ (hs h3) r1) as [st Est]; [lia|].
    replace ((0 <=? r1) && (r1 <? Z.of_nat (length (hs h3)))) with true by lia.
    rewrite Est; cbn [bind]. f_equal. apply vgetZ_Ok in Est. destruct Est as [_ Est].
    destruct (Nat.eq_dec (Z.to_nat r1) 0) as [Z0|Z0].
    + rewrite Z0 in *. rewrite (t_root _ _ _ _ _ _ T4) in K1'. injection K1' as <-.
      apply (t_root_state _ _ _ _ _ _ T4 _ Est).
    + destruct (t_prev _ _ _ _ _ _ T4 (Z.to_nat r1) st w1 ltac:(lia) Est K1')
        as (y & ps & _ & _ & _ & _ & -> & _).
      rewrite last_last. reflexivity.
Qed.
Print Assumptions C11_states_are_contexts.

(** NextState extends the context: after any calls, walking the longer context leads to the state
    NextState returned. *)
Theorem C11_next_extends_the_context :
  forall (F : ofield) (M : Type) (ops : comp_ops F M) lms cfg h0 l h w r h1 l1 h2 c r' h3 l2 h4 r'' h5,
  initialize_models ops lms cfg = Ok h0 -> Forall (scores_total ops) lms ->
  hub_run ops h0 l = Ok h -> (forall d, In d (w ++ [c]) -> 0 <= d) ->
  hub_context ops h w 0 = Ok (r, h1) -> hub_run ops h1 l1 = Ok h2 ->
  hub_next ops h2 r c = Ok (r', h3) -> hub_run ops h3 l2 = Ok h4 ->
  hub_context ops h4 (w ++ [c]) 0 = Ok (r'', h5) ->
  Z.of_nat (length (hs h5)) < h_max h5 -> r'' = r'.
Proof.
  intros F M ops lms cfg h0 l h w r h1 l1 h2 c r' h3 l2 h4 r'' h5 Hi HT Hr N E1 Hr1 En Hr2 E2 Hsz.
  destruct (initialize_ok _ _ _ _ Hi) as (W0 & _).
  assert (T0 : trie ops true false lms h0 [[]]) by (apply (trie_init ops true false lms cfg h0); auto; discriminate).
  destruct (hub_run_wf _ _ _ _ W0 Hr) as [W C0].
  unfold hub_context in E1, E2. simpl in E1, E2.
  destruct (hub_context_loop_wf ops _ _ _ _ _ W (Z.le_refl 0) E1) as (W1 & C1 & R1 & R1').
  destruct (hub_run_wf _ _ _ _ W1 Hr1) as [W2 C2].
  destruct (hub_next_wf _ _ _ _ _ _ W2 En) as (W3 & C3 & R3 & R3').
  destruct (hub_run_wf _ _ _ _ W3 Hr2) as [W4 C4].
  destruct (hub_context_loop_wf ops _ _ _ _ _ W4 (Z.le_refl 0) E2) as (W5 & C5 & R5 & R5').
  unfold same_config in *. destruct C0 as (A0 & _ & _ & _ & B0), C1 as (A1 & _ & _ & _ & B1),
    C2 as (A2 & _ & _ & _ & B2), C3 as (A3 & _ & _ & _ & B3), C4 as (A4 & _ & _ & _ & B4), C5 as (A5 & _ & _ & _ & B5).
  rewrite A5, A4, A3, A2, A1, A0 in Hsz.
  destruct (trie_run ops true false l _ _ _ _ W0 T0 (or_introl eq_refl) Hr) as (c1 & T1 & X1); [lia|].
  destruct (trie_context_loop ops true false w lms h c1 0 [] r h1) as (c2 & T2 & X2 & P1 & P2); auto; try lia.
  { pose proof (t_root _ _ _ _ _ _ T1) as Hroot. apply (ctx_at_nth c1 0); [lia|exact Hroot]. }
  { intros d Hd; apply N, in_or_app; auto. }
  destruct (trie_run ops true false l1 _ _ _ _ W1 T2 (or_introl eq_refl) Hr1) as (c3 & T3 & X3); [lia|].
  destruct (trie_hub_next ops true false lms h2 c3 r c r' h3) as (c4 & v & T4 & X4 & V1 & V2 & _); auto; try lia.
  destruct (trie_run ops true false l2 _ _ _ _ W3 T4 (or_introl eq_refl) Hr2) as (c5 & T5 & X5); [lia|].
  destruct (trie_context_loop ops true false (w ++ [c]) lms h4 c5 0 [] r'' h5) as (c6 & T6 & X6 & Q1 & Q2); auto; try lia.
  { pose proof (t_root _ _ _ _ _ _ T5) as Hroot. apply (ctx_at_nth c5 0); [lia|exact Hroot]. }
  simpl in P2, Q2.
  assert (I1 : r < Z.of_nat (length (hs h1))) by (apply R1'; right; pose proof (wf_nonempty _ W); lia).
  assert (I2 : r'' < Z.of_nat (length (hs h5))) by (apply R5'; right; pose proof (wf_nonempty _ W4); lia).
  assert (K1 : nth_error c2 (Z.to_nat r) = Some w).
  { unfold ctx_at in P2. rewrite (t_len _ _ _ _ _ _ T2) in P2.
    destruct ((0 <=? r) && (r <? Z.of_nat (length (hs h1)))) eqn:E; [auto|lia]. }
  assert (K2 : nth_error c6 (Z.to_nat r'') = Some (w ++ [c])).
  { unfold ctx_at in Q2. rewrite (t_len _ _ _ _ _ _ T6) in Q2.
    destruct ((0 <=? r'') && (r'' <? Z.of_nat (length (hs h5)))) eqn:E; [auto|lia]. }
  assert (K3 : nth_error c3 (Z.to_nat r) = Some w) by (eapply extends_nth; eauto).
  assert (v = w).
  { assert (ctx_at c3 r = Some w) by (apply ctx_at_nth; auto). congruence. }
  subst v. destruct V2 as [V2 V3]; [apply N, in_or_app; simpl; auto|].
  assert (K4 : nth_error c6 (Z.to_nat r') = Some (w ++ [c])).
  { eapply extends_nth; [exact X6|]. eapply extends_nth; [exact X5|exact V3]. }
  pose proof (t_nodup _ _ _ _ _ _ T6) as ND. rewrite NoDup_nth_error in ND.
  assert (Z.to_nat r'' = Z.to_nat r'); [|lia].
  apply ND; [eapply nth_error_Some_lt; eauto|congruence].
Qed.
Print Assumptions C11_next_extends_the_context.

(** For components whose NextState answers are repeatable (all but a dynamic PPM model), the
    state of a context holds, for each component, exactly the state that component (as it is now)
    reaches on that context. *)
Theorem C11_component_states :
  forall (F : ofield) (M : Type) (ops : comp_ops F M) learning lms cfg h0 l h w r h1 st k m,
  initialize_models ops lms cfg = Ok h0 ->
  Forall (repeatable ops learning) lms -> Forall (scores_total ops) lms ->
  learning = true \/ forallb is_query l = true ->
  hub_run ops h0 l = Ok h -> (forall c, In c w -> 0 <= c) ->
  hub_context ops h w 0 = Ok (r, h1) ->
  Z.of_nat (length (hs h1)) < h_max h1 ->
  vgetZ (hs h1) r = Ok st -> nth_error (h_lms h1) k = Some m ->
  exists m', c_walk ops m (c_start ops m) w = Ok (hs_model st k, m').
Proof.
  intros F M ops learning lms cfg h0 l h w r h1 st k m Hi HR HT Q Hr N E1 Hsz Est Hk.
  destruct (initialize_ok _ _ _ _ Hi) as (W0 & _).
  assert (T0 : trie ops learning true lms h0 [[]]) by (apply (trie_init ops learning true lms cfg h0); auto).
  destruct (hub_run_wf _ _ _ _ W0 Hr) as [W C0].
  unfold hub_context in E1. simpl in E1.
  destruct (hub_context_loop_wf ops _ _ _ _ _ W (Z.le_refl 0) E1) as (W1 & C1 & R1 & R1').
  unfold same_config in *. destruct C0 as (A0 & _ & _ & _ & B0), C1 as (A1 & _ & _ & _ & B1).
  rewrite A1, A0 in Hsz.
  destruct (trie_run ops learning true l _ _ _ _ W0 T0 Q Hr) as (c1 & T1 & X1); [lia|].
  destruct (trie_context_loop ops learning true w lms h c1 0 [] r h1) as (c2 & T2 & X2 & P1 & P2); auto; try lia.
  { pose proof (t_root _ _ _ _ _ _ T1) as Hroot. apply (ctx_at_nth c1 0); [lia|exact Hroot]. }
  simpl in P2. assert (Hlt := vgetZ_lt _ _ _ _ Est). apply vgetZ_Ok in Est. destruct Est as [_ Est].
  unfold ctx_at in P2. rewrite (t_len _ _ _ _ _ _ T2) in P2.
  destruct ((0 <=? r) && (r <? Z.of_nat (length (hs h1)))) eqn:E; [|lia].
  apply (t_comps _ _ _ _ _ _ T2 eq_refl k m _ _ _ Hk Est P2). apply reach_refl.
Qed.
Print Assumptions C11_component_states.

(** The hypotheses hold of the concrete hub, with learning calls in between. *)
Example C11_example :
  (let* h0 := two_hub 1 10 in
   let* (r1, h1) := hub_context qops h0 [97; 98] 0 in
   let* h2 := hub_run qops h1 [OpUpdate r1 [98; 120] 3; OpNext 77 98; OpExtract 2] in
   let* (r2, h3) := hub_context qops h2 [97; 98] 0 in
   let* (r3, h4) := hub_context qops h3 [98] 0 in
   let* y := hub_state_sym h4 r3 in
   let* st := vgetZ (hs h4) r2 in
   Ok (r1, r2, r3, y, h_models st, length (hs h4)))
  = Ok (2, 2, 5, 98, [2; 1], 6%nat).
Proof. vmr. Qed.
Example C11_example_components :
  Forall (repeatable qops true) [ab_loaded; bc_loaded] /\ Forall (scores_total qops) [ab_loaded; bc_loaded].
Proof.
  split; eapply Forall_impl; [|exact two_components| |exact two_components]; simpl; intros m (A & B & _); auto.
Qed.

(** * C12 *)

(** Even after states have been recycled any number of times, NextState returns a state whose
    symbol is the symbol asked for. *)
Theorem C12_symbol_survives_recycling :
  forall (F : ofield) (M : Type) (ops : comp_ops F M) lms cfg h0 l h s c r h',
  initialize_models ops lms cfg = Ok h0 -> Forall (scores_total ops) lms ->
  hub_run ops h0 l = Ok h -> 0 <= c ->
  hub_next ops h s c = Ok (r, h') -> hub_state_sym h' r = Ok c.
Proof.
  intros F M ops lms cfg h0 l h s c r h' Hi HT Hr Hc E.
  destruct (initialize_ok _ _ _ _ Hi) as (W0 & _).
  assert (L0 : linked_hub ops true false lms h0) by (apply (linked_init ops true false lms cfg); auto; discriminate).
  destruct (hub_run_wf _ _ _ _ W0 Hr) as [W _].
  pose proof (linked_run ops true false l lms h0 h W0 L0 (or_introl (conj eq_refl eq_refl)) Hr) as L.
  destruct (linked_next ops true false lms h s c r h' W L E) as [_ H].
  destruct (H Hc) as (ms & nx & H1 & H2 & _). rewrite nth_error_map in H1.
  destruct (nth_error (hs h') (Z.to_nat r)) as [st|] eqn:Est; [|discriminate]. injection H1 as _ _ H1.
  unfold hub_state_sym, in_range. assert (Hlt := nth_error_Some_lt _ _ _ _ Est).
  replace ((0 <=? r) && (r <? Z.of_nat (length (hs h')))) with true by lia.
  destruct (vgetZ_range _ (hs h') r) as [x Ex]; [lia|]. rewrite Ex; cbn [bind].
  apply vgetZ_Ok in Ex. destruct Ex as [_ Ex]. congruence.
Qed.
Print Assumptions C12_symbol_survives_recycling.

(** For histories of queries over components with repeatable answers, each component's state in
    the state returned is the one that component reaches, with the symbol, from its state in the
    state asked about; provided the two hub states differ. *)
Theorem C12_components_survive_recycling_partial :
  forall (F : ofield) (M : Type) (ops : comp_ops F M) lms cfg h0 l h s c r h' st st' k m,
  initialize_models ops lms cfg = Ok h0 ->
  Forall (repeatable ops false) lms -> Forall (scores_total ops) lms ->
  forallb is_query l = true -> hub_run ops h0 l = Ok h -> 0 <= c ->
  in_range h s = true -> vgetZ (hs h) s = Ok st ->
  hub_next ops h s c = Ok (r, h') -> r <> s -> vgetZ (hs h') r = Ok st' ->
  nth_error (h_lms h') k = Some m ->
  exists m', c_next ops m (hs_model st k) c = Ok (hs_model st' k, m').
Proof.
  intros F M ops lms cfg h0 l h s c r h' st st' k m Hi HR HT Q Hr Hc Hin Est E N Est' Hk.
  destruct (initialize_ok _ _ _ _ Hi) as (W0 & _).
  assert (L0 : linked_hub ops false true lms h0) by (apply (linked_init ops false true lms cfg); auto).
  destruct (hub_run_wf _ _ _ _ W0 Hr) as [W _].
  pose proof (linked_run ops false true l lms h0 h W0 L0 (or_intror Q) Hr) as L.
  destruct (linked_next ops false true lms h s c r h' W L E) as [_ H].
  destruct (H Hc) as (ms & nx & H1 & H2 & H3). rewrite Hin in H3.
  specialize (H3 eq_refl N st Est k m Hk m (reach_refl _ _ _)).
  rewrite nth_error_map in H1. apply vgetZ_Ok in Est'. destruct Est' as [_ Est'].
  rewrite Est' in H1. injection H1 as <- _ _. exact H3.
Qed.
Print Assumptions C12_components_survive_recycling_partial.

Example C12_example :
  (let* h0 := two_hub 0 10 in
   let* h1 := hub_run qops h0 [OpContext [97; 98; 97; 98; 97; 98; 97; 98; 97] 0; OpContext [98; 98; 97] 4] in
   let* (r, h2) := hub_next qops h1 7 99 in
   let* y := hub_state_sym h2 r in
   let* st := vgetZ (hs h2) r in
   Ok (r, y, h_models st, length (hs h2))) = Ok (4, 99, [-1; 2], 10%nat).
Proof. vmr. Qed.

(** What is missing, and false: a state asked for its own continuation when it is the next to be
    recycled becomes that continuation, and also its own successor. After "a...a" (nine times) fills
    the pool, NextState(1, b) recycles state 1 itself: it now stands for "ab", yet NextState(1, b)
    answers 1 forever, for "abb", "abbb", and so on.  With two models the Bayesian or learned
    differences are lost; StateSym is right. *)
Theorem C12_self_loop_refuted :
  (let* h0 := two_hub 0 10 in
   let* (r9, h1) := hub_context qops h0 [97; 97; 97; 97; 97; 97; 97; 97; 97] 0 in
   let* (r1, h2) := hub_next qops h1 1 98 in
   let* (r2, h3) := hub_next qops h2 r1 98 in
   let* (r3, h4) := hub_next qops h3 r2 98 in
   Ok (r9, r1, r2, r3)) = Ok (9, 1, 1, 1).
Proof. vmr. Qed.
Print Assumptions C12_self_loop_refuted.

(** * C13 *)

(** Interpolation: the response of ExtractLMScores is the mixture, with the weights in force in
    that state, of the responses of the components in their stored states. *)
Theorem C13_mixture :
  forall (F : ofield) (M : Type) (ops : comp_ops F M) (h : hub F M) s ws resp h',
  hub_extract ops h s = Ok (Some resp, h') -> (2 <= length (h_weights h))%nat ->
  mixture_weights_at h s = Ok (map Val ws) ->
  exists st scs, vgetZ (hs h) s = Ok st /\ length scs = length ws /\
    (forall k, (k < length ws)%nat -> exists m sc m', nth_error (h_lms h) k = Some m /\
       nth_error scs k = Some sc /\ c_extract ops m (hs_model st k) = Ok (Some sc, m')) /\
    (mix_total ws scs <> f0 -> is_mixture ws scs resp /\ fsum (values (sc_entries resp)) = f1).
Proof. intros. eapply hub_extract_mixture; eauto. Qed.
Print Assumptions C13_mixture.

(** The order of the keys ([str_lt] in [is_mixture]) is the lexicographic one: the first
    difference decides, a proper prefix comes first. *)
Inductive lexicographic : str -> str -> Prop :=
| lex_prefix p c t : lexicographic p (p ++ c :: t)
| lex_first_difference p x y a b : x < y -> lexicographic (p ++ x :: a) (p ++ y :: b).

Theorem C13_key_order : forall a b, str_lt a b <-> lexicographic a b.
Proof.
  intros a b. unfold str_lt. split.
  - revert b. induction a as [|x a IH]; intros [|y b]; cbn [str_cmp]; try discriminate.
    + intros _. apply (lex_prefix []).
    + destruct (Z.compare_spec x y) as [->|L|L]; try discriminate.
      * intros E. destruct (IH b E) as [p c t|p u w a' b' L].
        -- apply (lex_prefix (y :: p)).
        -- apply (lex_first_difference (y :: p)). exact L.
      * intros _. apply (lex_first_difference []). exact L.
  - intros [p c t|p x y a' b' L].
    + induction p as [|z p IH]; cbn [app str_cmp]; [reflexivity|]. rewrite Z.compare_refl. exact IH.
    + induction p as [|z p IH]; cbn [app str_cmp].
      * rewrite (proj2 (Z.compare_lt_iff x y) L). reflexivity.
      * rewrite Z.compare_refl. exact IH.
Qed.
Print Assumptions C13_key_order.

(** Every number in a mixture is a number. *)
Lemma mixture_vals (F : ofield) (ws : list (car F)) scs resp :
  is_mixture ws scs resp -> forall k v, In (k, v) (sc_entries resp) -> exists x, v = Val x.
Proof. intros H k v Hin. rewrite (mx_probs _ _ _ H k v Hin). eauto. Qed.

(** The normalised prior weights of a configuration. *)
Definition priors {F : ofield} (cfg : @hub_config F) : list (car F) :=
  map (fun w => fdiv w (fsum (cfg_weights cfg))) (cfg_weights cfg).

Lemma init_weights (F : ofield) M (ops : comp_ops F M) lms cfg h0 :
  initialize_models ops lms cfg = Ok h0 -> cfg_type cfg = MixInterpolation ->
  (2 <= length (cfg_weights cfg))%nat -> (forall w, In w (cfg_weights cfg) -> flt f0 w = true) ->
  h_weights h0 = map Val (priors cfg) /\ h_bayes h0 = Z.to_nat (cfg_bayes cfg) /\
  flt f0 (fsum (cfg_weights cfg)) = true.
Proof.
  intros Hi Ht Hn Hp. destruct (initialize_ok _ _ _ _ Hi) as (_ & _ & _ & _ & _ & _ & A).
  rewrite Ht in A. destruct (Nat.ltb_spec (length (cfg_weights cfg)) 2); [lia|].
  destruct A as [-> ->].
  assert (Pos : flt f0 (fsum (cfg_weights cfg)) = true).
  { apply fsum_pos_all; auto. intros E. rewrite E in Hn. simpl in Hn. lia. }
  split; [|auto]. unfold priors. rewrite !map_map. apply map_ext_in. intros w Hw.
  rewrite nsum_vals by (intros E; rewrite E in Hn; simpl in Hn; lia). simpl. unfold num_div.
  replace (feqb (fsum (cfg_weights cfg)) f0) with false; auto.
  symmetry. apply feqb_neq. apply not_eq_sym, flt_neq. exact Pos.
Qed.

Lemma priors_sum (F : ofield) (cfg : @hub_config F) :
  flt f0 (fsum (cfg_weights cfg)) = true -> fsum (priors cfg) = f1.
Proof.
  intros H. unfold priors. rewrite fsum_map_div by (apply not_eq_sym, flt_neq; auto).
  rewrite map_id. apply fdiv_self. apply not_eq_sym, flt_neq; auto.
Qed.

(** End to end, static weights: walk a context, ask for scores. The response lists exactly the
    symbols some component lists for that context, sorted and once, each with the weighted sum of
    the components' probabilities; and sums to one.  The components list distributions. *)
Theorem C13_context_mixture :
  forall (F : ofield) (M : Type) (ops : comp_ops F M) learning lms cfg h0 l h w r h1 resp h2,
  initialize_models ops lms cfg = Ok h0 ->
  cfg_type cfg = MixInterpolation -> (2 <= length (cfg_weights cfg))%nat ->
  (forall x, In x (cfg_weights cfg) -> flt f0 x = true) -> cfg_bayes cfg <= 0 ->
  Forall (repeatable ops learning) lms -> Forall (scores_total ops) lms ->
  learning = true \/ forallb is_query l = true ->
  hub_run ops h0 l = Ok h -> (forall c, In c w -> 0 <= c) ->
  hub_context ops h w 0 = Ok (r, h1) -> Z.of_nat (length (hs h1)) < h_max h1 ->
  hub_extract ops h1 r = Ok (Some resp, h2) ->
  exists scs, length scs = length (cfg_weights cfg) /\
    (forall k, (k < length scs)%nat -> exists m sc t m1 m2, nth_error (h_lms h1) k = Some m /\
       nth_error scs k = Some sc /\
       c_walk ops m (c_start ops m) w = Ok (t, m1) /\ c_extract ops m t = Ok (Some sc, m2)) /\
    ((forall sc, In sc scs -> fsum (map snd (sc_entries sc)) = f1) ->
     is_mixture (priors cfg) scs resp /\
     (forall key v, In (key, v) (sc_entries resp) -> v = Val (mix_at (priors cfg) scs key)) /\
     fsum (values (sc_entries resp)) = f1).
Proof.
  intros F M ops learning lms cfg h0 l h w r h1 resp h2 Hi Ht Hn Hp Hb HR HT Q Hr N E1 Hsz E2.
  destruct (initialize_ok _ _ _ _ Hi) as (W0 & _).
  destruct (init_weights _ _ _ _ _ _ Hi Ht Hn Hp) as (Hw & Hbay & Pos).
  destruct (hub_run_wf _ _ _ _ W0 Hr) as [W C0].
  destruct (hub_context_wf _ _ _ _ _ _ W E1) as (W1 & C1 & _).
  assert (Hw1 : h_weights h1 = map Val (priors cfg)).
  { destruct C0 as (_ & A & _), C1 as (_ & B & _). congruence. }
  assert (Hb1 : h_bayes h1 = 0%nat).
  { destruct C0 as (_ & _ & A & _), C1 as (_ & _ & B & _). rewrite B, A, Hbay. destruct (cfg_bayes cfg); auto; lia. }
  assert (Lw : length (priors cfg) = length (cfg_weights cfg)) by apply map_length.
  destruct (C13_mixture F M ops h1 r (priors cfg) resp h2 E2) as (st & scs & S1 & S2 & S3 & S4).
  { rewrite Hw1, map_length, Lw. auto. }
  { unfold mixture_weights_at. rewrite Hb1, Hw1. reflexivity. }
  exists scs. split; [congruence|]. split.
  - intros k Hk. destruct (S3 k) as (m & sc & m' & K1 & K2 & K3); [congruence|].
    destruct (C11_component_states F M ops learning lms cfg h0 l h w r h1 st k m Hi HR HT Q Hr N E1 Hsz S1 K1)
      as [m1 Hwalk].
    exists m, sc, (hs_model st k), m1, m'. auto.
  - intros Hd. assert (T1 : mix_total (priors cfg) scs = f1).
    { apply mix_total_one; auto. apply priors_sum; auto. }
    destruct S4 as [S4 S5]; [rewrite T1; apply f1_neq_0|].
    split; auto. split; auto.
    intros key v Hin. rewrite (mx_probs _ _ _ S4 key v Hin), T1. f_equal.
    apply fdiv_1.
Qed.
Print Assumptions C13_context_mixture.
