(** Properties C04-C09: the simple bigram character model. *)
From Verif Require Import Base Field LmModel TextModel BigramModel BigramProofs BigramReadProofs.
From Coq Require Import String.
Close Scope string_scope.
Open Scope list_scope.
Local Open Scope Z_scope.

(** In the statements below [bigram_read vf cf = Ok m0] says that a model was loaded from some
    vocabulary and count files, and [bigram_run m0 h = Ok m] that [m] is the model after the
    arbitrary history [h] of UpdateLMCounts calls. *)

(** * C05: refinement to counting *)

(** After any history the scores of any state are the relative frequencies of the counts in
    the files plus the counts learned: [learned] adds up, over all calls with a positive
    count, that count for every bigram (previous symbol, symbol) the call mentioned. *)
Theorem C05_scores_are_relative_frequencies :
  forall (F : ofield) vf cf m0 h m,
  bigram_read vf cf = Ok m0 -> bigram_run m0 h = Ok m ->
  exists v C0, loaded_from vf cf v C0 /\
    forall s, extract_lm_scores (F := F) m s =
      Ok (freq_scores v (fun a c => C0 a c + learned v h a c) (state_symbol v s)).
Proof.
  intros F vf cf m0 h m Hr Hh. destruct (read_loaded vf cf m0 Hr) as [v [C0 [R L]]].
  exists v, C0. split; [exact L|]. intros s.
  exact (extract_repr m v _ s (proj1 (run_repr h m0 v C0 R) m Hh)).
Qed.
Print Assumptions C05_scores_are_relative_frequencies.

(** A two-letter model, taught "ab" twice and then "ba" once. *)
Definition ab_vocab : bytes := bstr "0
97
98
".
Definition ab_model : outcome bigram := bigram_read (Some (Some ab_vocab)) None.
Example C05_example :
  (let* m0 := ab_model in
   let* m := bigram_run m0 [(0, [97; 98], 2); (2, [97; 300; 97], 1); (7, [98], 0)] in
   extract_lm_scores (F := Qc_field) m 1)
  = Ok (5, [(0, Val (q 1 5)); (97, Val (q 1 5)); (98, Val (q 3 5))]).
Proof. vmr. Qed.
Example C05_learned_example :
  map (fun p => learned [0; 97; 98] [(0, [97; 98], 2); (2, [97; 300; 97], 1); (7, [98], 0)] (fst p) (snd p))
      [(97, 98); (0, 97); (98, 97); (97, 97)]
  = [2; 3; 1; 0].
Proof. vmr. Qed.

(** * C04 *)

Theorem C04_scores_are_a_distribution :
  forall (F : ofield) vf cf m0 h m s,
  bigram_read vf cf = Ok m0 -> bigram_run m0 h = Ok m ->
  exists total syms probs,
    extract_lm_scores (F := F) m s = Ok (total, combine syms (map Val probs)) /\
    syms = utf8_indices m0 /\ List.length probs = List.length syms /\
    StronglySorted Z.lt syms /\ syms <> [] /\
    fsum probs = f1 /\ (forall p, In p probs -> flt f0 p = true).
Proof.
  intros F vf cf m0 h m s Hr Hh. destruct (read_loaded vf cf m0 Hr) as [v [C0 [R L]]].
  pose proof (proj1 (run_repr h m0 v C0 R) m Hh) as R'.
  assert (Hs : In (state_symbol v s) v).
  { destruct (fix_state_spec m v _ s R') as [_ Hn]. eapply nth_error_In; eauto. }
  destruct (freq_scores_sum (F := F) v (fun a c => C0 a c + learned v h a c) (state_symbol v s))
    as [ps [E [El [Es Ep]]]].
  { apply (repr_ne _ _ _ R'). }
  { intros c Hc. apply (repr_pos _ _ _ R'); auto. }
  exists (fst (freq_scores (F := F) v (fun a c => C0 a c + learned v h a c) (state_symbol v s))), v, ps.
  split. { rewrite (extract_repr m v _ s R'), <- E. reflexivity. }
  split. { symmetry; apply (repr_idx _ _ _ R). }
  split; [exact El|]. split; [apply (repr_sorted _ _ _ R)|].
  split; [apply (repr_ne _ _ _ R)|]. split; assumption.
Qed.
Print Assumptions C04_scores_are_a_distribution.

(** Out-of-range states behave as the start state. *)
Theorem C04_invalid_state_is_start :
  forall (F : ofield) m s,
  (s < 0 \/ Z.of_nat (List.length (utf8_indices m)) <= s) ->
  extract_lm_scores (F := F) m s = extract_lm_scores m 0.
Proof.
  intros F m s H. unfold extract_lm_scores.
  assert (E : fix_state m s = 0) by (unfold fix_state, valid_state; destruct (_ && _) eqn:E; lia).
  assert (E0 : fix_state m 0 = 0) by (unfold fix_state; destruct (valid_state m 0); auto).
  rewrite E, E0. reflexivity.
Qed.
Print Assumptions C04_invalid_state_is_start.

Example C04_example :
  (let* m0 := bigram_read (Some (Some ab_vocab)) (Some (Some (bstr "1 5 0
2 2 2
0 0 7
"))) in
   let* m := bigram_run m0 [(0, [98], 3)] in
   extract_lm_scores (F := Qc_field) m (-4))
  = Ok (10, [(0, Val (q 1 10)); (97, Val (q 1 2)); (98, Val (q 2 5))]).
Proof. vmr. Qed.

(** * C06 *)

(** [SymLMScore] (as the probability [exp(-score)]) is the listed probability of the symbol,
    and zero — infinite cost — exactly for symbols that are not listed. *)
Theorem C06_symbol_score_agrees :
  forall (F : ofield) vf cf m0 h m s c,
  bigram_read vf cf = Ok m0 -> bigram_run m0 h = Ok m ->
  exists total scores p,
    extract_lm_scores (F := F) m s = Ok (total, scores) /\
    sym_lm_score m s c = Ok (Val p) /\
    (In c (map fst scores) -> In (c, Val p) scores /\ flt f0 p = true) /\
    (~ In c (map fst scores) -> p = f0).
Proof.
  intros F vf cf m0 h m s c Hr Hh. destruct (read_loaded vf cf m0 Hr) as [v [C0 [R L]]].
  pose proof (proj1 (run_repr h m0 v C0 R) m Hh) as R'.
  set (C := fun a c => C0 a c + learned v h a c) in *.
  eexists _, _, _. split; [rewrite (extract_repr m v _ s R'); reflexivity|].
  split; [apply (sym_score_repr m v _ s c R')|].
  set (a := state_symbol v s).
  assert (Ha : In a v).
  { destruct (fix_state_spec m v _ s R') as [_ Hn]. eapply nth_error_In; eauto. }
  assert (Hdom : map fst (snd (freq_scores (F := F) v C a)) = v).
  { unfold freq_scores; simpl. rewrite map_map; simpl. apply map_id. }
  simpl snd in Hdom. rewrite Hdom. split.
  - intros Hc. replace (existsb (Z.eqb c) v) with true.
    2:{ symmetry; apply existsb_exists. exists c; split; auto. apply Z.eqb_refl. }
    split.
    + apply in_map_iff. exists c; auto.
    + apply fdiv_pos; apply ofZ_pos.
      * pose proof (repr_pos _ _ _ R' a c Ha Hc). lia.
      * pose proof (zsum_pos (C a) v (repr_ne _ _ _ R')
                      (fun d Hd => repr_pos _ _ _ R' a d Ha Hd)). lia.
  - intros Hc. replace (existsb (Z.eqb c) v) with false; auto.
    symmetry. apply not_true_iff_false. intros E. apply existsb_exists in E.
    destruct E as [x [Hx E]]. apply Z.eqb_eq in E. subst x; contradiction.
Qed.
Print Assumptions C06_symbol_score_agrees.

Example C06_example :
  (let* m0 := ab_model in
   let* m := bigram_run m0 [(0, [97; 98], 2)] in
   let* x := sym_lm_score (F := Qc_field) m 1 98 in
   let* y := sym_lm_score (F := Qc_field) m 1 99 in Ok (x, y)) = Ok (Val (q 3 5), Val (q 0 1)).
Proof. vmr. Qed.

(** * C07 *)

(** [NextState] ignores the state, is the position of the symbol in the vocabulary or -1, and
    [StateSym] inverts it. *)
Theorem C07_states_are_positions :
  forall vf cf m0 h m,
  bigram_read vf cf = Ok m0 -> bigram_run m0 h = Ok m ->
  exists v, utf8_indices m = v /\ NoDup v /\
  forall s c,
    (In c v -> exists i, nth_error v i = Some c /\ next_state m s c = Ok (Z.of_nat i) /\
                         state_sym m (Z.of_nat i) = Ok c) /\
    (~ In c v -> next_state m s c = Ok (-1)).
Proof.
  intros vf cf m0 h m Hr Hh. destruct (read_loaded vf cf m0 Hr) as [v [C0 [R L]]].
  pose proof (proj1 (run_repr h m0 v C0 R) m Hh) as R'.
  exists v. split; [apply (repr_idx _ _ _ R')|]. split; [eapply repr_nodup; eauto|].
  intros s c. unfold next_state. rewrite (repr_table _ _ _ R'). unfold pos_or_neg1. split.
  - intros Hc. destruct (index_of c v) as [i|] eqn:E.
    + exists i. assert (Hn := index_of_Some _ _ _ E). assert (Hi := index_of_lt _ _ _ E).
      split; [exact Hn|]. split; [reflexivity|]. unfold state_sym.
      replace (valid_state m (Z.of_nat i)) with true
        by (symmetry; apply (valid_state_iff m v _ _ R'); lia).
      rewrite (repr_idx _ _ _ R'). unfold vgetZ, vget.
      destruct (Z.ltb_spec (Z.of_nat i) 0); [lia|]. rewrite Nat2Z.id, Hn. reflexivity.
    + apply index_of_None in E; contradiction.
  - intros Hc. apply index_of_None in Hc. rewrite Hc. reflexivity.
Qed.
Print Assumptions C07_states_are_positions.

Example C07_example :
  (let* m := ab_model in
   let* x := next_state m 5 98 in let* y := next_state m 0 99 in let* z := state_sym m 2 in
   Ok (x, y, z)) = Ok (2, -1, 98).
Proof. vmr. Qed.

(** * C08 *)

(** A loaded model is well formed and holds what the files say. *)
Theorem C08_accepted_models_are_well_formed :
  forall vf cf m,
  bigram_read vf cf = Ok m ->
  exists v C, loaded_from vf cf v C /\
    utf8_indices m = v /\ v <> [] /\ StronglySorted Z.lt v /\ (forall x, In x v -> 0 <= x) /\
    bigram_counts m = map (fun a => map (C a) v) v /\
    utf8_normalizer m = map (fun a => zsum (map (C a) v)) v /\
    (forall a c, In a v -> In c v -> 1 <= C a c).
Proof.
  intros vf cf m H. destruct (read_loaded vf cf m H) as [v [C [R L]]].
  exists v, C. destruct R; auto 10.
Qed.
Print Assumptions C08_accepted_models_are_well_formed.

(** Memory safety of the loader for files it was meant for: at least one vocabulary line, no
    symbol INT_MAX, and no more count rows than vocabulary lines.  Missing from the full
    statement ("no input file makes it touch memory out of bounds"): see the refutations. *)
Theorem C08_load_is_memory_safe_partial :
  forall vf cf,
  (forall content, vf = Some (Some content) ->
     getlines content <> [] /\
     (forall v, vocab_of content v -> ~ In int32_max v) /\
     (forall matrix, cf = Some (Some matrix) ->
        (List.length (getlines matrix) <= List.length (getlines content))%nat)) ->
  bigram_read vf cf <> UB.
Proof. exact read_not_UB. Qed.
Print Assumptions C08_load_is_memory_safe_partial.

Example C08_example :
  let content := ab_vocab in
  getlines content <> [] /\
  (forall v, vocab_of content v -> ~ In int32_max v) /\
  bigram_read (Some (Some content)) (Some (Some (bstr "1 1 1
1 1"))) = Err.
Proof.
  split; [discriminate|]. split; [|vmr].
  intros v Hv Hin. assert (E : read_vocab (Some ab_vocab) = Ok [0; 97; 98]) by (vmr).
  rewrite (vocab_of_unique _ _ _ E Hv) in Hin. simpl in Hin. unfold int32_max in Hin. lia.
Qed.

(** One row too many is written past the end of the normalizer array, although the very next
    check would have rejected the file. *)
Theorem C08_too_many_rows_refuted :
  bigram_read (Some (Some (bstr "97
"))) (Some (Some (bstr "1
1
"))) = UB.
Proof. vmr. Qed.
Print Assumptions C08_too_many_rows_refuted.

(** An empty vocabulary file makes Read call back() on an empty vector. *)
Theorem C08_empty_vocab_refuted : bigram_read (Some (Some [])) None = UB.
Proof. vmr. Qed.
Print Assumptions C08_empty_vocab_refuted.

(** A vocabulary entry that is not a number terminates the process (uncaught exception). *)
Theorem C08_non_numeric_vocab_refuted : bigram_read (Some (Some (bstr "a
"))) None = Crash.
Proof. vmr. Qed.
Print Assumptions C08_non_numeric_vocab_refuted.

(** * C09 *)

(** If for every pair of symbols the initial count and everything learned stays within int64,
    no update overflows (or fails in any other way). *)
Theorem C09_no_overflow :
  forall vf cf m0 h,
  bigram_read vf cf = Ok m0 ->
  exists v C0, loaded_from vf cf v C0 /\
    ((forall a c, In a v -> In c v -> C0 a c + learned v h a c <= int64_max) ->
     exists m, bigram_run m0 h = Ok m) /\
    (bigram_run m0 h = UB \/ exists m, bigram_run m0 h = Ok m).
Proof.
  intros vf cf m0 h Hr. destruct (read_loaded vf cf m0 Hr) as [v [C0 [R L]]].
  exists v, C0. destruct (run_repr h m0 v C0 R) as [_ [H2 H3]]. auto.
Qed.
Print Assumptions C09_no_overflow.

Example C09_example :
  (let* m0 := ab_model in
   let* m := bigram_run m0 (repeat (0, [97; 98], 2147483647) 10) in
   Ok (utf8_normalizer m)) = Ok [21474836473; 21474836473; 3].
Proof. vmr. Qed.

(** Without the bound the signed 64-bit counter overflows; the interface takes an int64. *)
Theorem C09_overflow_refuted :
  (let* m0 := ab_model in bigram_run m0 [(0, [97], int64_max)]) = UB /\
  (exists m0, ab_model = Ok m0).
Proof. split; [vmr|]. destruct ab_model eqn:E; eauto; vm_compute in E; discriminate. Qed.
Print Assumptions C09_overflow_refuted.
