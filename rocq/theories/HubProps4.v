(** C11: what StateSym answers about every number, a state or not. *)
From Verif Require Import Base Field LmModel HubModel HubSpec HubProofs HubTrie HubProps.
Open Scope list_scope.
Local Notation length := List.length.
Local Open Scope Z_scope.

(** Before wrap-around, after any history: a number that is no state of the hub has symbol -1, state
    0 has symbol 0, and every other state a symbol that is not negative: so -1 tells the caller that
    there is no such state. *)
Theorem C11_symbol_of_any_state :
  forall (F : ofield) (M : Type) (ops : comp_ops F M) lms cfg h0 l h s,
  initialize_models ops lms cfg = Ok h0 -> Forall (scores_total ops) lms ->
  hub_run ops h0 l = Ok h -> Z.of_nat (length (hs h)) < h_max h ->
  (s < 0 \/ Z.of_nat (length (hs h)) <= s -> hub_state_sym h s = Ok (-1)) /\
  (0 <= s < Z.of_nat (length (hs h)) -> exists c, hub_state_sym h s = Ok c /\ 0 <= c /\ (s = 0 -> c = 0)).
Proof.
  intros F M ops lms cfg h0 l h s Hi HT Hr Hsz.
  destruct (initialize_ok _ _ _ _ Hi) as (W0 & _).
  assert (T0 : trie ops true false lms h0 [[]]) by (apply (trie_init ops true false lms cfg h0); auto; discriminate).
  destruct (hub_run_wf _ _ _ _ W0 Hr) as [W C0]. destruct C0 as (A0 & _). rewrite A0 in Hsz.
  destruct (trie_run ops true false l _ _ _ _ W0 T0 (or_introl eq_refl) Hr) as (c1 & T1 & X1); [lia|].
  unfold hub_state_sym, in_range. split.
  - intros H. replace ((0 <=? s) && (s <? Z.of_nat (length (hs h)))) with false by lia. reflexivity.
  - intros H. replace ((0 <=? s) && (s <? Z.of_nat (length (hs h)))) with true by lia.
    destruct (nth_error (hs h) (Z.to_nat s)) as [st|] eqn:E.
    2:{ apply nth_error_None in E. lia. }
    unfold vgetZ. replace (s <? 0) with false by lia. unfold vget. rewrite E. cbn [bind].
    exists (h_sym st). split; [reflexivity|].
    destruct (Z.eq_dec s 0) as [->|N].
    + destruct (t_root_state _ _ _ _ _ _ T1 st E) as [_ ->]. lia.
    + destruct (nth_error c1 (Z.to_nat s)) as [x|] eqn:Ex.
      2:{ apply nth_error_None in Ex. rewrite (t_len _ _ _ _ _ _ T1) in Ex. lia. }
      destruct (t_prev _ _ _ _ _ _ T1 (Z.to_nat s) st x ltac:(lia) E Ex) as (y & ps & _ & P & _).
      split; [exact P|lia].
Qed.
Print Assumptions C11_symbol_of_any_state.

(** The hypotheses are met: the hub of the bigram models after a context of two characters. *)
Example C11_symbol_met :
  (let* h0 := two_hub 1 10 in
   let* h := hub_run qops h0 [OpContext [97; 98] 0] in
   let* x := hub_state_sym h 0 in let* y := hub_state_sym h 2 in let* z := hub_state_sym h 3 in
   Ok ((Z.of_nat (length (hs h)) <? h_max h), x, y, z)) = Ok (true, 0, 98, -1).
Proof. vmr. Qed.
