(** No call of any model changes the symbols it knows. *)
From Coq Require Import Field.
From Verif Require Import Base Field LmModel HubModel HubSpec HubDistInst.
From Verif Require Import TextModel BigramModel PpmModel NgramModel WordModel FactoryModel.
Local Open Scope Z_scope.

Section Keep.
  Context {M B : Type}.
  Variable f : M -> B.
  Definition keep {A} (x : outcome (A * M)) (m : M) : Prop := forall r m', x = Ok (r, m') -> f m' = f m.
  Definition keep1 (x : outcome M) (m : M) : Prop := forall m', x = Ok m' -> f m' = f m.
  Lemma keep_ok {A} (r : A) m' m : f m' = f m -> keep (Ok (r, m')) m.
  Proof. intros E r0 m0 H. injection H as _ <-. auto. Qed.
  Lemma keep1_ok m' m : f m' = f m -> keep1 (Ok m') m.
  Proof. intros E m0 H. injection H as <-. auto. Qed.
  Lemma keep_trans {A} (x : outcome (A * M)) m1 m : keep x m1 -> f m1 = f m -> keep x m.
  Proof. intros K E r m' H. rewrite <- E. eauto. Qed.
  Lemma keep1_trans (x : outcome M) m1 m : keep1 x m1 -> f m1 = f m -> keep1 x m.
  Proof. intros K E m' H. rewrite <- E. eauto. Qed.
  Lemma keep_pure {A C} (x : outcome C) (k : C -> outcome (A * M)) m : (forall a, keep (k a) m) -> keep (bind x k) m.
  Proof. intros K r m' H. apply bind_Ok in H. destruct H as [a [_ H]]. eapply K; eauto. Qed.
  Lemma keep1_pure {C} (x : outcome C) (k : C -> outcome M) m : (forall a, keep1 (k a) m) -> keep1 (bind x k) m.
  Proof. intros K m' H. apply bind_Ok in H. destruct H as [a [_ H]]. eapply K; eauto. Qed.
  Lemma keep_seq {A C} (x : outcome (C * M)) (k : C * M -> outcome (A * M)) m : keep x m -> (forall a m1, f m1 = f m -> keep (k (a, m1)) m) -> keep (bind x k) m.
  Proof. intros Kx K r m' H. apply bind_Ok in H. destruct H as [[a m1] [E H]]. exact (K a m1 (Kx _ _ E) _ _ H). Qed.
  Lemma keep_seq1 {A} (x : outcome M) (k : M -> outcome (A * M)) m : keep1 x m -> (forall m1, f m1 = f m -> keep (k m1) m) -> keep (bind x k) m.
  Proof. intros Kx K r m' H. apply bind_Ok in H. destruct H as [m1 [E H]]. exact (K m1 (Kx _ E) _ _ H). Qed.
  Lemma keep_err {A} m : keep (A := A) Err m. Proof. intros r m' H. discriminate. Qed.
  Lemma keep_crash {A} m : keep (A := A) Crash m. Proof. intros r m' H. discriminate. Qed.
  Lemma keep_ub {A} m : keep (A := A) UB m. Proof. intros r m' H. discriminate. Qed.
End Keep.

Create HintDb kept.
Ltac kp1 :=
  match goal with
  | |- keep _ (Ok _) _ => apply keep_ok; cbn; congruence
  | |- keep1 _ (Ok _) _ => apply keep1_ok; cbn; congruence
  | |- keep _ Err _ => apply keep_err
  | |- keep _ Crash _ => apply keep_crash
  | |- keep _ UB _ => apply keep_ub
  | |- keep _ (if ?c then _ else _) _ => destruct c
  | |- keep _ (match ?c with _ => _ end) _ => destruct c
  | |- keep _ (bind ?x ?k) _ => first [ (refine (keep_seq _ x k _ _ _); [solve [kps]|intros ? ? ?; cbv beta iota]) | (refine (keep_seq1 _ x k _ _ _); [solve [kps]|intros ? ?; cbv beta iota]) | (refine (keep_pure _ x k _ _); intros ?; cbv beta iota) ]
  | |- keep1 _ (bind ?x ?k) _ => refine (keep1_pure _ x k _ _); intros ?; cbv beta iota
  | |- keep _ _ _ => solve [eauto with kept | eapply keep_trans; [solve [eauto with kept]|cbn; congruence]]
  | |- keep1 _ _ _ => solve [eauto with kept | eapply keep1_trans; [solve [eauto with kept]|cbn; congruence]]
  end
with kps := repeat kp1.

Section Ppm.
  Context {F : ofield}.
  Implicit Types m : ppm F.
  Notation K := (keep (@p_syms F)).
  Lemma ks_new m s : K (get_new_cache_index m s) m. Proof. unfold get_new_cache_index. kps. Qed.
  Hint Resolve ks_new : kept.
  Lemma ks_store m s v : keep1 (@p_syms F) (store_cache m s v) m. Proof. unfold store_cache. kps. Qed.
  Hint Resolve ks_store : kept.
  Lemma ks_alloc m s v : K (allocate_and_store m s v) m. Proof. unfold allocate_and_store. kps. Qed.
  Hint Resolve ks_alloc : kept.
  Lemma ks_nonempty m s b v : K (update_cache_at_nonempty m s b v) m. Proof. unfold update_cache_at_nonempty. kps. Qed.
  Hint Resolve ks_nonempty : kept.
  Lemma ks_at ens m s : (forall m' s', K (ens m' s') m') -> K (update_cache_at_state ens m s) m.
  Proof. intros H. unfold update_cache_at_state. kps. Qed.
  Hint Resolve ks_at : kept.
  Lemma ks_fuel n : forall m s, K (ensure_cache_fuel n m s) m.
  Proof. induction n as [|n IH]; intros m s; cbn [ensure_cache_fuel]; kps. Qed.
  Hint Resolve ks_fuel : kept.
  Lemma ks_ensure m s : K (ensure_cache m s) m. Proof. apply ks_fuel. Qed.
  Hint Resolve ks_ensure : kept.
  Lemma ks_update_cache m s : K (update_cache m s) m. Proof. apply ks_at, ks_fuel. Qed.
  Hint Resolve ks_update_cache : kept.
  Lemma ks_cached {A} (pick : vals F -> list A) m s i : K (cached pick m s i) m. Proof. unfold cached. kps. Qed.
  Hint Resolve ks_cached : kept.
  Lemma ks_dest m s i : K (get_destination_state m s i) m. Proof. apply ks_cached. Qed.
  Lemma ks_orig m s i : K (get_arc_origin_state m s i) m. Proof. apply ks_cached. Qed.
  Lemma ks_prob m s i : K (get_prob m s i) m. Proof. apply ks_cached. Qed.
  Hint Resolve ks_dest ks_orig ks_prob : kept.
  Lemma ks_add m s : K (PpmModel.add_new_state m s) m. Proof. unfold PpmModel.add_new_state. kps. Qed.
  Hint Resolve ks_add : kept.
  Lemma ks_highest m c s : K (update_highest_found m c s) m. Proof. unfold update_highest_found. kps. Qed.
  Hint Resolve ks_highest : kept.
  Lemma ks_model_fuel n : forall m c h s, K (update_model_fuel n m c h s) m.
  Proof. induction n as [|n IH]; intros m c h s; cbn [update_model_fuel]; kps. Qed.
  Hint Resolve ks_model_fuel : kept.
  Lemma ks_model m c h s : K (update_model m c h s) m. Proof. apply ks_model_fuel. Qed.
  Hint Resolve ks_model : kept.
  Lemma ks_next m s c : K (ppm_next m s c) m. Proof. unfold ppm_next. kps. Qed.
  Hint Resolve ks_next : kept.
  Lemma ks_score m s c : K (ppm_score m s c) m. Proof. unfold ppm_score. kps. Qed.
  Lemma ks_extract m s : K (ppm_extract m s) m. Proof. unfold ppm_extract. kps. Qed.
  Lemma ks_again n : forall m s i, K (update_again n m s i) m.
  Proof. induction n as [|n IH]; intros m s i; cbn [update_again]; kps. Qed.
  Hint Resolve ks_again : kept.
  Lemma ks_loop n syms : forall m s, K (update_loop m s syms n) m.
  Proof. induction syms as [|c t IH]; intros m s; cbn [update_loop]; kps. Qed.
  Hint Resolve ks_loop : kept.
  Lemma ks_update m s w n : K (ppm_update m s w n) m. Proof. unfold ppm_update. kps. Qed.
End Ppm.

Section Word.
  Context {F : ofield}.
  Implicit Types m : word F.
  Notation K := (keep (@wm_ng F)).
  Lemma kw_index m s w : K (new_cache_index m s w) m. Proof. unfold new_cache_index. kps. Qed.
  Hint Resolve kw_index : kept.
  Lemma kw_touch m s : keep1 (@wm_ng F) (touch m s) m. Proof. unfold touch. kps. Qed.
  Hint Resolve kw_touch : kept.
  Lemma kw_fill n : forall m s, K (fill_weights n m s) m.
  Proof. induction n as [|n IH]; intros m s; cbn [fill_weights]; kps. Qed.
  Hint Resolve kw_fill : kept.
  Lemma kw_ensure m s : K (ensure m s) m. Proof. unfold ensure. kps. Qed.
  Hint Resolve kw_ensure : kept.
  Lemma kw_first m s c : K (next_first_letter m s c) m. Proof. unfold next_first_letter. kps. Qed.
  Hint Resolve kw_first : kept.
  Lemma kw_next m s c : K (w_next_state m s c) m. Proof. unfold w_next_state. kps. Qed.
  Lemma kw_range m s b e : K (range_prob m s b e) m. Proof. unfold range_prob. kps. Qed.
  Hint Resolve kw_range : kept.
  Lemma kw_final m s : K (final_prob m s) m. Proof. unfold final_prob. kps. Qed.
  Hint Resolve kw_final : kept.
  Lemma kw_ranges ends : forall m s b, K (range_probs m s b ends) m.
  Proof. induction ends as [|e t IH]; intros m s b; cbn [range_probs]; kps. Qed.
  Hint Resolve kw_ranges : kept.
  Lemma kw_extract m s : K (w_extract m s) m. Proof. unfold w_extract. kps. Qed.
  Hint Resolve kw_extract : kept.
  Lemma kw_score m s c : K (w_score m s c) m. Proof. unfold w_score. kps. Qed.
End Word.
