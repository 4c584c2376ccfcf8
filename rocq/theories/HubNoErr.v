(** Scoring never ends with an error status, whatever the state: it answers, aborts or is undefined.
    (The hub turns error statuses of AssignNewHubState into state 0, which C57 has to exclude.) *)
From Verif Require Import Base Field LmModel HubModel HubSpec TextModel BigramModel BigramComp PpmModel NgramModel WordModel FactoryModel.
Local Open Scope Z_scope.

Definition noerr {A} (x : outcome A) : Prop := x <> Err.
Create HintDb noerr.
Lemma noerr_bind {A B} (x : outcome A) (f : A -> outcome B) : noerr x -> (forall a, noerr (f a)) -> noerr (bind x f).
Proof. unfold noerr. destruct x; cbn; auto; discriminate. Qed.
Lemma noerr_ok {A} (a : A) : noerr (Ok a).
Proof. discriminate. Qed.
Lemma noerr_crash {A} : noerr (@Crash A).
Proof. discriminate. Qed.
Lemma noerr_ub {A} : noerr (@UB A).
Proof. discriminate. Qed.
Lemma noerr_vget {A} (l : list A) i : noerr (vget l i).
Proof. unfold vget. destruct (nth_error l i); discriminate. Qed.
Lemma noerr_vgetZ {A} (l : list A) i : noerr (vgetZ l i).
Proof. unfold vgetZ. destruct (_ <? _); [discriminate|apply noerr_vget]. Qed.
#[export] Hint Resolve noerr_ok noerr_crash noerr_ub noerr_vget noerr_vgetZ : noerr.

Ltac ne_step :=
  match goal with
  | |- noerr (bind _ _) => apply noerr_bind; [|intros ?]
  | |- noerr (match ?x with _ => _ end) => destruct x
  | |- noerr (let _ := _ in _) => cbv zeta
  | |- noerr _ => solve [auto with noerr]
  end.
Ltac ne := repeat ne_step.

Section NoErr.
  Context {F : ofield}.
  Lemma ne_vset {A} (l : list A) i a : noerr (vset l i a).
  Proof. unfold vset. ne. Qed.
  Lemma ne_vsetZ {A} (l : list A) i a : noerr (PpmModel.vsetZ l i a).
  Proof. unfold PpmModel.vsetZ, vset. ne. Qed.
  Hint Resolve ne_vset ne_vsetZ : noerr.
  Lemma ne_softmax (l : list (car F)) : noerr (softmax_renormalize l).
  Proof. unfold softmax_renormalize. ne. Qed.
  Hint Resolve ne_softmax : noerr.

  (** ** Bigrams *)
  Lemma ne_bigram (m : bigram) s c : noerr (sym_lm_score (F := F) m s c).
  Proof. unfold sym_lm_score, next_state, sym_state. ne. Qed.
  Hint Resolve ne_bigram : noerr.

  (** ** N-grams *)
  Lemma ne_backoff (f : list (@pstate F)) s : noerr (ng_backoff f s).
  Proof. unfold ng_backoff. ne. Qed.
  Hint Resolve ne_backoff : noerr.
  Lemma ne_final_loop n : forall (m : ngram F) s bo, noerr (final_loop n m s bo).
  Proof. induction n as [|n IH]; intros m s bo; cbn [final_loop]; ne. Qed.
  Lemma ne_label_loop n : forall (m : ngram F) s l c, noerr (label_loop n m s l c).
  Proof. induction n as [|n IH]; intros m s l c; cbn [label_loop]; ne. Qed.
  Hint Resolve ne_final_loop ne_label_loop : noerr.
  Lemma ne_ngram (m : ngram F) s c : noerr (ng_score m s c).
  Proof. unfold ng_score, label_cost, final_cost. ne. Qed.
  Lemma ne_next_model n : forall (m : ngram F) s l, noerr (next_model_loop n m s l).
  Proof. induction n as [|n IH]; intros m s l; cbn [next_model_loop]; ne. Qed.
  Hint Resolve ne_ngram ne_next_model : noerr.

  (** ** Words *)
  Lemma ne_w_oldest (l : list (@wcache F)) : noerr (w_find_oldest l).
  Proof. unfold w_find_oldest. ne. Qed.
  Hint Resolve ne_w_oldest : noerr.
  Lemma ne_new_index (m : word F) s w : noerr (new_cache_index m s w).
  Proof. unfold new_cache_index. ne. Qed.
  Lemma ne_cache_of (m : word F) s : noerr (cache_of m s).
  Proof. unfold cache_of. ne. Qed.
  Lemma ne_touch (m : word F) s : noerr (touch m s).
  Proof. unfold touch. ne. Qed.
  Lemma ne_arc_weights pos (l : list (@arc F)) : forall w h, noerr (arc_weights pos l w h).
  Proof. induction l as [|a l IH]; intros w h; cbn [arc_weights]; ne. Qed.
  Hint Resolve ne_new_index ne_cache_of ne_touch ne_arc_weights : noerr.
  Lemma ne_fill n : forall (m : word F) s, noerr (fill_weights n m s).
  Proof. induction n as [|n IH]; intros m s; cbn [fill_weights]; ne. Qed.
  Hint Resolve ne_fill : noerr.
  Lemma ne_ensure (m : word F) s : noerr (ensure m s).
  Proof. unfold ensure. ne. Qed.
  Hint Resolve ne_ensure : noerr.
  Lemma ne_range (m : word F) ms b e : noerr (range_prob m ms b e).
  Proof. unfold range_prob. ne. Qed.
  Lemma ne_final_prob (m : word F) ms : noerr (final_prob m ms).
  Proof. unfold final_prob. ne. Qed.
  Hint Resolve ne_range ne_final_prob : noerr.
  Lemma ne_ranges (ends : list Z) : forall (m : word F) ms b, noerr (range_probs m ms b ends).
  Proof. induction ends as [|e t IH]; intros m ms b; cbn [range_probs]; ne. Qed.
  Lemma ne_backedoff n : forall (m : word F) s c, noerr (backedoff_loop n m s c).
  Proof. induction n as [|n IH]; intros m s c; cbn [backedoff_loop]; ne. Qed.
  Lemma ne_skip n : forall (m : word F) p f i, noerr (skip_same n m p f i).
  Proof. induction n as [|n IH]; intros m p f i; cbn [skip_same]; ne. Qed.
  Hint Resolve ne_ranges ne_backedoff ne_skip : noerr.
  Lemma ne_word_at (m : word F) i : noerr (word_at m i).
  Proof. unfold word_at. ne. Qed.
  Hint Resolve ne_word_at : noerr.
  Lemma ne_char_ends n : forall (m : word F) p e i, noerr (char_ends n m p e i).
  Proof. induction n as [|n IH]; intros m p e i; cbn [char_ends]; ne. Qed.
  Hint Resolve ne_char_ends : noerr.
  Lemma ne_w_extract (m : word F) s : noerr (w_extract m s).
  Proof. unfold w_extract, next_char_ends, next_model_state, backedoff_final. ne. Qed.
  Hint Resolve ne_w_extract : noerr.

  (** ** PPM *)
  Lemma ne_backoff_state (f : list (@pstate F)) s : noerr (backoff_state f s).
  Proof. unfold backoff_state, first_arc. ne. Qed.
  Lemma ne_no_obs (f : list (@pstate F)) s : noerr (no_observations f s).
  Proof. unfold no_observations, first_arc. ne. Qed.
  Lemma ne_oldest (l : list (pcache F)) : noerr (find_oldest_last_accessed l).
  Proof. unfold find_oldest_last_accessed. ne. Qed.
  Hint Resolve ne_backoff_state ne_no_obs ne_oldest : noerr.
  Lemma ne_get_new (m : ppm F) s : noerr (get_new_cache_index m s).
  Proof. unfold get_new_cache_index. ne. Qed.
  Lemma ne_store (m : ppm F) s v : noerr (store_cache m s v).
  Proof. unfold store_cache. ne. Qed.
  Lemma ne_plain (l : list (num F)) : noerr (plain_probs l).
  Proof. induction l as [|a l IH]; cbn [plain_probs]; ne. Qed.
  Lemma ne_fill_arcs (m : ppm F) s u d l : forall v, noerr (fill_arcs m s u d l v).
  Proof. induction l as [|a l IH]; intros v; cbn [fill_arcs]; ne. Qed.
  Hint Resolve ne_get_new ne_store ne_plain ne_fill_arcs : noerr.
  Lemma ne_alloc (m : ppm F) s v : noerr (allocate_and_store m s v).
  Proof. unfold allocate_and_store. ne. Qed.
  Lemma ne_probs (m : ppm F) s st u d v : noerr (update_cache_states_and_probs m s st u d v).
  Proof. unfold update_cache_states_and_probs. ne. Qed.
  Hint Resolve ne_alloc ne_probs : noerr.
  Lemma ne_nonempty (m : ppm F) s b v : noerr (update_cache_at_nonempty m s b v).
  Proof. unfold update_cache_at_nonempty. ne. Qed.
  Hint Resolve ne_nonempty : noerr.
  Lemma ne_at_state (e : ppm F -> Z -> try F (vals F)) m s : (forall m s, noerr (e m s)) -> noerr (update_cache_at_state e m s).
  Proof. intros H. unfold update_cache_at_state. ne. Qed.
  Hint Resolve ne_at_state : noerr.
  Lemma ne_lower n : forall (m : ppm F) l b, noerr (lower_updated_loop n m l b).
  Proof. induction n as [|n IH]; intros m l b; cbn [lower_updated_loop]; ne. Qed.
  Hint Resolve ne_lower : noerr.
  Lemma ne_ensure_ppm n : forall (m : ppm F) s, noerr (ensure_cache_fuel n m s).
  Proof. induction n as [|n IH]; intros m s; cbn [ensure_cache_fuel]; unfold lower_order_cache_updated; ne. Qed.
  Hint Resolve ne_ensure_ppm : noerr.
  Lemma ne_ppm_score (m : ppm F) s c : noerr (ppm_score m s c).
  Proof. unfold ppm_score, get_prob, cached, ensure_cache. ne. Qed.
  Hint Resolve ne_ppm_score : noerr.

  Lemma any_scores_total (m : any_model F) : scores_total any_ops m.
  Proof.
    intros m' t c _. change (noerr (c_score any_ops m' t c)). destruct m' as [n|n|n|n]; cbn [any_ops c_score]; apply noerr_bind.
    - cbn [bigram_ops c_score]. ne.
    - intros [? ?]; ne.
    - cbn [ngram_ops c_score]. ne.
    - intros [? ?]; ne.
    - cbn [ppm_ops c_score]. ne.
    - intros [? ?]; ne.
    - cbn [word_ops c_score]. unfold w_score. ne.
    - intros [? ?]; ne.
  Qed.
End NoErr.
