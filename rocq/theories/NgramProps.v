(** Properties C30-C33 and C52: the character n-gram model. *)
From Coq Require Import Field.
From Verif Require Import Base Field LmModel LmProofs HubModel HubSpec HubProofs HubTrie HubMix PpmModel
  NgramModel NgramSpec NgramProofs.
Local Open Scope Z_scope.

(** What the external checks sfst::IsCanonical and sfst::IsNormalized promise of a model they
    accept. *)
Definition checks_model {F} (accept : list (@pstate F) -> Z -> bool) : Prop :=
  forall f s, accept f s = true -> canonical f /\ normalized f /\ exists st, has_state f s st.

(** A symbol table: position 0 is epsilon; labels and symbols are distinct. *)
Record table_ok (tab : list (Z * str)) : Prop := {
  tab_eps : exists e rest, tab = (0, e) :: rest;
  tab_labels : NoDup (map fst tab);
  tab_symbols : NoDup (map snd tab);
  tab_positive : forall x w, In (x, w) (tl tab) -> 0 < x /\ w <> []
}.

Record loaded {F} (m : ngram F) : Prop := {
  ld_read : exists accept sg, checks_model accept /\ ng_read accept sg = Ok m;
  ld_table : table_ok (ng_syms m)
}.

Definition valid_state {F} (m : ngram F) (s : Z) : Prop := 0 <= s < Z.of_nat (length (ng_fst m)).

Lemma fadd_0_l_ {F : ofield} (x : car F) : fadd f0 x = x.
Proof. apply (F_R (f_th F)). Qed.

Section Loaded.
  Context {F : ofield}.
  Add Field FfieldNg2 : (f_th F).
  Variable m : ngram F.
  Hypothesis L : loaded m.

  Lemma ld_facts : canonical (ng_fst m) /\ normalized (ng_fst m) /\ valid_state m (ng_start m) /\
    valid_state m (ng_unigram m) /\ ng_oov m = find_label (ng_syms m) unk_symbol /\
    (exists w, ng_backoff (ng_fst m) (ng_start m) = Ok (ng_unigram m, w) \/
               ng_unigram m = ng_start m).
  Proof.
    destruct L as [[accept [sg [CH R]]] _]. unfold ng_read in R.
    destruct (st_model sg) as [[ff|]|]; try discriminate.
    apply bind_Ok in R. destruct R as [syms [E1 R]].
    apply bind_Ok in R. destruct R as [[b g] [E2 R]].
    destruct (accept (ff_states ff) (ff_start ff)) eqn:A; [|discriminate]. injection R as <-.
    destruct (CH _ _ A) as [C [N [st Hs]]]. simpl. unfold valid_state. simpl.
    pose proof (proj1 (has_state_ex _ _) (ex_intro _ st Hs)) as V.
    split; auto. split; auto. split; auto. split.
    - destruct (backoff_cases _ _ _ Hs) as [[g' [b' I]]|N0].
      + rewrite (backoff_some _ C _ _ _ _ Hs I) in E2. injection E2 as <- <-.
        destruct (can_dest _ C _ _ _ Hs I) as [st' Hb]. simpl in Hb.
        destruct (Z.eqb_spec b' (-1)); auto. apply has_state_ex; eauto.
      + rewrite (backoff_none _ _ _ Hs N0) in E2. injection E2 as <- <-. auto.
    - split; auto. rewrite E2. destruct (Z.eqb_spec b (-1)).
      + exists f1; right; auto.
      + exists g. left; auto.
  Qed.

  Lemma label_of (x : Z) (w : str) : In (x, w) (tl (ng_syms m)) -> find_label (ng_syms m) w = x.
  Proof.
    intros I. destruct L as [_ T]. destruct (tab_eps _ T) as [e [rest E]].
    pose proof (tab_symbols _ T) as N. rewrite E in *. simpl in I.
    unfold find_label. destruct (find _ _) as [[l w']|] eqn:Q.
    - apply find_some in Q. destruct Q as [Q1 Q2]. simpl in Q2. apply str_eqb_eq in Q2. subst w'.
      assert (G : forall tab : list (Z * str), NoDup (map snd tab) -> In (l, w) tab -> In (x, w) tab -> l = x).
      { clear. induction tab as [|[a b] t IH]; simpl; intros N A B; [tauto|].
        inversion N as [|? ? N1 N2]; subst.
        destruct A as [A|A], B as [B|B].
        - congruence.
        - injection A as -> ->. exfalso. apply N1. apply (in_map snd) in B. auto.
        - injection B as -> ->. exfalso. apply N1. apply (in_map snd) in A. auto.
        - auto. }
      apply (G ((0, e) :: rest)); auto. right; auto.
    - assert (I2 : In (x, w) ((0, e) :: rest)) by (right; auto).
      pose proof (find_none _ _ Q _ I2) as X. simpl in X.
      rewrite (proj2 (str_eqb_eq w w) eq_refl) in X. discriminate.
  Qed.

  Lemma no_label (w : str) : ~ In w (map snd (ng_syms m)) -> find_label (ng_syms m) w = -1.
  Proof.
    intros N. unfold find_label. destruct (find _ _) as [[l w']|] eqn:Q; auto.
    apply find_some in Q. destruct Q as [Q1 Q2]. simpl in Q2. apply str_eqb_eq in Q2. subst w'.
    exfalso. apply N. apply (in_map snd) in Q1. auto.
  Qed.

  Lemma symbol_of (x : Z) (w : str) : In (x, w) (ng_syms m) -> find_symbol (ng_syms m) x = w.
  Proof.
    intros I. destruct L as [_ T]. pose proof (tab_labels _ T) as N. revert N I.
    unfold find_symbol. generalize (ng_syms m) as tab. induction tab as [|[a b] t IH]; simpl; [tauto|].
    intros N I. inversion N as [|? ? N1 N2]; subst. destruct (Z.eqb_spec a x).
    - destruct I as [I|I]; [congruence|]. subst. exfalso. apply N1. apply (in_map fst) in I. auto.
    - destruct I as [I|I]; [congruence|]. auto.
  Qed.
End Loaded.

(** * C30 *)

(** In any state of a loaded model, the score of a character with label [x] is the back-off product
    of the specification, and that of the end of the string (symbol 0) likewise.  In particular
    the call returns. *)
Theorem C30_score_is_backoff_product : forall (F : ofield) (m : ngram F) s,
  loaded m -> valid_state m s ->
  (forall c x, c <> 0 -> In (x, [c]) (tl (ng_syms m)) ->
     exists p, symbol_prob (ng_fst m) x s p /\ ng_score m s c = Ok p) /\
  (exists p, end_prob (ng_fst m) s p /\ ng_score m s 0 = Ok p).
Proof.
  intros F m s L V. destruct (ld_facts m L) as [C [_ _]].
  apply has_state_ex in V. destruct V as [st Hs]. split.
  - intros c x Hc I. pose proof (label_of m L x [c] I) as E.
    destruct L as [_ T]. destruct (tab_positive _ T _ _ I) as [Hx _].
    unfold ng_score, sym_label. destruct (Z.eqb_spec c 0); [lia|]. rewrite E.
    destruct (Z.eqb_spec x (-1)); [lia|].
    apply (label_cost_sym _ C m eq_refl x s st ltac:(lia) ltac:(lia) Hs).
  - unfold ng_score, sym_label. cbn [Z.eqb]. apply (label_cost_end _ C m eq_refl s st Hs).
Qed.
Print Assumptions C30_score_is_backoff_product.

(** The specification determines the score. *)
Theorem C30_score_is_determined : forall (F : ofield) (m : ngram F) s x p p',
  loaded m -> symbol_prob (ng_fst m) x s p -> symbol_prob (ng_fst m) x s p' -> p = p'.
Proof.
  intros F m s x p p' L. destruct (ld_facts m L) as [C _]. apply symbol_prob_fun; auto.
Qed.
Print Assumptions C30_score_is_determined.

(** * C31 *)

Lemma label_costs_pf {F : ofield} (m : ngram F) s (labels : list Z) :
  (forall x, In x labels -> exists p, label_cost m s x = Ok p) ->
  label_costs m s labels = Ok (map (pf m s) labels).
Proof.
  induction labels as [|x t IH]; intros H; simpl; auto.
  destruct (H x (or_introl eq_refl)) as [p E].
  rewrite E. cbn [bind]. rewrite IH by (intros y Hy; apply H; right; auto). cbn [bind].
  unfold pf at 2. rewrite E. reflexivity.
Qed.

(** ExtractLMScores lists the end of the string (as the empty string) and every symbol of the table
    exactly once, with normalization 1, and the probability of each is the one SymLMScore gives;
    they are non-negative and sum to one.  State -1 stands for the unigram state.  (The last
    hypothesis says that the symbol table covers the arcs.) *)
Theorem C31_scores_are_a_distribution : forall (F : ofield) (m : ngram F) s s',
  loaded m -> s' = (if s =? -1 then ng_unigram m else s) -> valid_state m s' ->
  (forall t st a, has_state (ng_fst m) t st -> In a (symbol_arcs st) ->
     In (a_label a) (map fst (tl (ng_syms m)))) ->
  exists e ps,
    ng_extract m s =
      Ok (LmScores (Val f1) (([], Val e) :: combine (map snd (tl (ng_syms m))) (map Val ps))) /\
    length ps = length (tl (ng_syms m)) /\
    end_prob (ng_fst m) s' e /\
    Forall2 (fun '(x, _) p => symbol_prob (ng_fst m) x s' p) (tl (ng_syms m)) ps /\
    (forall p, In p (e :: ps) -> fle f0 p = true) /\
    fadd e (fsum ps) = f1.
Proof.
  intros F m s s' L Es V COV. destruct (ld_facts m L) as [C [N [Vs [Vu _]]]].
  assert (CS : check_state m s = s').
  { unfold check_state. destruct (Z.eqb_spec s (-1)); [|congruence].
    destruct (Z.eqb_spec (ng_unigram m) (-1)); [unfold valid_state in Vu; lia|congruence]. }
  apply has_state_ex in V. destruct V as [st Hs].
  pose proof (ld_table _ L) as T.
  set (labels := map fst (tl (ng_syms m))).
  assert (PL : forall x, In x labels -> 0 < x).
  { intros x Hx. apply in_map_iff in Hx. destruct Hx as [[y w] [E I]]. simpl in E. subst.
    destruct (tab_positive _ T _ _ I); auto. }
  assert (NL : NoDup labels).
  { unfold labels. destruct (tab_eps _ T) as [e [rest E]]. pose proof (tab_labels _ T) as Q.
    rewrite E in *. simpl in *. inversion Q; auto. }
  assert (OK : forall x, In x labels -> exists p, label_cost m s' x = Ok p).
  { intros x Hx. pose proof (PL x Hx).
    destruct (label_cost_sym _ C m eq_refl x s' st ltac:(lia) ltac:(lia) Hs) as [p [_ P]]. eauto. }
  pose proof (pf_end _ C m eq_refl s' st Hs) as PE.
  assert (E0 : label_cost m s' 0 = Ok (pf m s' 0)).
  { destruct (label_cost_end _ C m eq_refl s' st Hs) as [p [_ P]]. unfold pf. rewrite P. auto. }
  pose proof (mass_one _ C m eq_refl labels N NL PL COV s' st Hs) as SUM.
  assert (PP : forall x, In x labels -> symbol_prob (ng_fst m) x s' (pf m s' x)).
  { intros x Hx. pose proof (PL x Hx). eapply pf_sym; eauto; lia. }
  assert (NN : forall p, In p (pf m s' 0 :: map (pf m s') labels) -> fle f0 p = true).
  { intros p [<-|I]; [eapply end_prob_nonneg; eauto|]. apply in_map_iff in I.
    destruct I as [x [<- I]]. eapply symbol_prob_nonneg; eauto. }
  exists (pf m s' 0), (map (pf m s') labels).
  assert (SM : softmax_renormalize (pf m s' 0 :: map (pf m s') labels) =
               Ok (map Val (pf m s' 0 :: map (pf m s') labels))).
  { assert (TOT : fsum (pf m s' 0 :: map (pf m s') labels) = f1) by (rewrite fsum_cons; exact SUM).
    destruct (softmax_ok (pf m s' 0 :: map (pf m s') labels)) as [X _]; auto.
    - destruct (Feq_dec (pf m s' 0) f0) as [Z0|Z0].
      + assert (P1 : flt f0 (fsum (map (pf m s') labels)) = true).
        { rewrite Z0 in SUM. replace (fsum (map (pf m s') labels)) with (@f1 F); [apply f1_pos|].
          rewrite <- SUM. apply fadd_0_l_. }
        assert (G : forall l : list (car F), (forall p, In p l -> fle f0 p = true) -> flt f0 (fsum l) = true ->
                    exists x, In x l /\ flt f0 x = true).
        { clear. induction l as [|a t IH]; intros H P.
          - exfalso. apply (flt_irrefl f0 P).
          - destruct (Feq_dec a f0) as [->|Na].
            + rewrite fsum_cons in P. destruct IH as [x [I X]].
              * intros p Hp. apply H. right; auto.
              * rewrite fadd_0_l_ in P. auto.
              * exists x. split; auto. right; auto.
            + exists a. split; [left; auto|]. apply flt_iff. split; auto. apply H. left; auto. }
        destruct (G (map (pf m s') labels)) as [x [I X]]; auto.
        * intros p Hp. apply NN. right; auto.
        * exists x. split; auto. right; auto.
      + exists (pf m s' 0). split; [left; auto|]. apply flt_iff. split; auto. apply NN. left; auto.
    - rewrite X. f_equal. rewrite TOT. apply map_ext. intros a. rewrite fdiv_1. reflexivity. }
  split.
  - unfold ng_extract. rewrite CS. fold labels. rewrite E0. cbn [bind].
    rewrite (label_costs_pf m s' labels OK). cbn [bind]. rewrite SM. cbn [bind]. f_equal. f_equal.
    cbn [map combine]. f_equal. f_equal. unfold labels. rewrite map_map.
    apply map_ext_in. intros [x w] I. simpl. apply symbol_of; auto.
    destruct (tab_eps _ T) as [e [rest E]]. rewrite E in *. right; auto.
  - split; [rewrite map_length; unfold labels; apply map_length|].
    split; auto. split; [|split; auto].
    clear - PP. unfold labels in *. revert PP. generalize (tl (ng_syms m)) as tab.
    induction tab as [|[x w] t IH]; intros PP; simpl; constructor.
    + apply PP. left; auto.
    + apply IH. intros y Hy. apply PP. right; auto.
Qed.
Print Assumptions C31_scores_are_a_distribution.

(** * C32 *)

(** With <unk> (the bytes [60; 117; 110; 107; 62]) in the table, a character that is not in it is treated as <unk>: its score is the
    back-off product for the label of <unk>, and it leads where <unk> leads. *)
Theorem C32_unknown_is_unk : forall (F : ofield) (m : ngram F) s c u,
  loaded m -> valid_state m s -> c <> 0 ->
  ~ In [c] (map snd (ng_syms m)) -> In (u, [60; 117; 110; 107; 62]) (tl (ng_syms m)) ->
  (exists p, symbol_prob (ng_fst m) u s p /\ ng_score m s c = Ok p) /\
  (exists r, symbol_dest (ng_fst m) u s r /\
     ng_next_state m s c = Ok (match r with Some d => d | None => ng_unigram m end)).
Proof.
  intros F m s c u L V Hc NI I. destruct (ld_facts m L) as [C [_ [_ [_ [OOV _]]]]].
  pose proof (label_of m L u unk_symbol I) as E. pose proof (no_label m [c] NI) as E2.
  destruct (tab_positive _ (ld_table _ L) _ _ I) as [Hu _].
  assert (SL : sym_label m c = u).
  { unfold sym_label. destruct (Z.eqb_spec c 0); [lia|]. rewrite E2. change (-1 =? -1) with true. cbv iota. congruence. }
  assert (CS : check_state m s = s).
  { unfold check_state. destruct (Z.eqb_spec s (-1)); auto. unfold valid_state in V. lia. }
  apply has_state_ex in V. destruct V as [st Hs]. unfold ng_score, ng_next_state. rewrite SL, CS. split.
  - apply (label_cost_sym _ C m eq_refl u s st ltac:(lia) ltac:(lia) Hs).
  - apply (next_model_ok _ C m eq_refl u s st ltac:(lia) ltac:(lia) Hs).
Qed.
Print Assumptions C32_unknown_is_unk.

(** Without <unk> the claim fails: the label -1 of an unknown symbol means "the back-off arc" to
    the matcher, so the score of an unknown character is the back-off weight of the state, and it
    leads to the back-off state. *)
Theorem C32_without_unk : forall (F : ofield) (m : ngram F) s st c,
  loaded m -> has_state (ng_fst m) s st -> c <> 0 ->
  ~ In [c] (map snd (ng_syms m)) -> ~ In [60; 117; 110; 107; 62] (map snd (ng_syms m)) ->
  (forall g b, In (Arc 0 g b) (ps_arcs st) -> ng_score m s c = Ok g /\ ng_next_state m s c = Ok b) /\
  (no_arc 0 st -> ng_score m s c = Ok f0 /\ ng_next_state m s c = Ok (ng_unigram m)).
Proof.
  intros F m s st c L Hs Hc NI NU. destruct (ld_facts m L) as [C [_ [_ [_ [OOV _]]]]].
  pose proof (no_label m [c] NI) as E2. pose proof (no_label m unk_symbol NU) as E1.
  assert (SL : sym_label m c = -1).
  { unfold sym_label. destruct (Z.eqb_spec c 0); [lia|]. rewrite E2. change (-1 =? -1) with true. cbv iota. congruence. }
  assert (CS : check_state m s = s).
  { unfold check_state. destruct (Z.eqb_spec s (-1)); auto. destruct Hs; lia. }
  unfold ng_score, ng_next_state. rewrite SL, CS.
  rewrite (label_cost_unk _ m eq_refl s st Hs), (next_model_unk _ m eq_refl s st Hs). split.
  - intros g b I. rewrite (arc_with_unique 0 (ps_arcs st) (Arc 0 g b)); auto. apply (can_labels _ C s st Hs).
  - intros N. apply arc_with_None in N. rewrite N. auto.
Qed.
Print Assumptions C32_without_unk.

(** * C33 *)

(** NextState follows the arc of the first state on the back-off chain that has one, and goes to
    the unigram state if none has; symbol 0 stays. *)
Theorem C33_next_state : forall (F : ofield) (m : ngram F) s s',
  loaded m -> s' = (if s =? -1 then ng_unigram m else s) -> valid_state m s' ->
  (forall c x, c <> 0 -> In (x, [c]) (tl (ng_syms m)) ->
     exists r, symbol_dest (ng_fst m) x s' r /\
       ng_next_state m s c = Ok (match r with Some d => d | None => ng_unigram m end)) /\
  ng_next_state m s 0 = Ok s'.
Proof.
  intros F m s s' L Es V. destruct (ld_facts m L) as [C [_ [_ [Vu _]]]].
  assert (CS : check_state m s = s').
  { unfold check_state. destruct (Z.eqb_spec s (-1)); [|congruence].
    destruct (Z.eqb_spec (ng_unigram m) (-1)); [unfold valid_state in Vu; lia|congruence]. }
  apply has_state_ex in V. destruct V as [st Hs]. unfold ng_next_state. rewrite CS. split.
  - intros c x Hc I. pose proof (label_of m L x [c] I) as E.
    destruct (tab_positive _ (ld_table _ L) _ _ I) as [Hx _].
    unfold sym_label. destruct (Z.eqb_spec c 0); [lia|]. rewrite E.
    destruct (Z.eqb_spec x (-1)); [lia|].
    apply (next_model_ok _ C m eq_refl x s' st ltac:(lia) ltac:(lia) Hs).
  - apply (next_model_0 _ m eq_refl s' st Hs).
Qed.
Print Assumptions C33_next_state.

Theorem C33_next_state_is_determined : forall (F : ofield) (m : ngram F) s x r r',
  loaded m -> symbol_dest (ng_fst m) x s r -> symbol_dest (ng_fst m) x s r' -> r = r'.
Proof.
  intros F m s x p p' L. destruct (ld_facts m L) as [C _]. apply symbol_dest_fun; auto.
Qed.
Print Assumptions C33_next_state_is_determined.

Lemma symbol_dest_valid {F : ofield} (f : list (@pstate F)) x s d : canonical f ->
  symbol_dest f x s (Some d) -> exists st, has_state f d st.
Proof.
  intros C H. remember (Some d) as r eqn:Er.
  induction H as [s st w d' Hs I|s st g b r Hs N I H IH|s st Hs N N0]; try discriminate; auto.
  injection Er as ->. exact (can_dest _ C s st _ Hs I).
Qed.

(** States returned for states are states: no walk, whatever the symbols, ever leaves the
    automaton or fails, with or without <unk>. *)
Theorem C33_walks_stay_in_the_model : forall (F : ofield) (m : ngram F) ctx s,
  loaded m -> valid_state m s ->
  exists s', c_walk ngram_ops m s ctx = Ok (s', m) /\ valid_state m s'.
Proof.
  intros F m ctx s L V. revert s V. induction ctx as [|c t IH]; intros s V.
  - exists s. auto.
  - assert (S1 : exists s1, ng_next_state m s c = Ok s1 /\ valid_state m s1).
    { destruct (ld_facts m L) as [C [_ [_ [Vu [OOV _]]]]].
      assert (CS : check_state m s = s).
      { unfold check_state. destruct (Z.eqb_spec s (-1)); auto. unfold valid_state in V. lia. }
      pose proof V as V0. apply has_state_ex in V0. destruct V0 as [st Hs].
      unfold ng_next_state. rewrite CS. set (x := sym_label m c).
      destruct (Z.eq_dec x 0) as [->|X0]; [|destruct (Z.eq_dec x (-1)) as [->|X1]].
      - exists s. split; auto. apply (next_model_0 _ m eq_refl s st Hs).
      - rewrite (next_model_unk _ m eq_refl s st Hs). eexists; split; eauto.
        destruct (arc_with 0 (ps_arcs st)) as [a|] eqn:E; auto.
        apply arc_with_In in E. destruct E as [I _]. apply has_state_ex. exact (can_dest _ C s st a Hs I).
      - destruct (next_model_ok _ C m eq_refl x s st X0 X1 Hs) as [r [R1 R2]].
        eexists; split; eauto. destruct r as [d|]; auto.
        apply has_state_ex. eapply symbol_dest_valid; eauto. }
    destruct S1 as [s1 [E1 V1]]. destruct (IH s1 V1) as [s' [E2 V2]]. exists s'. split; auto.
    simpl. rewrite E1. simpl. exact E2.
Qed.
Print Assumptions C33_walks_stay_in_the_model.

(** No call whatever, learning calls included, changes the model; so inside a hub (properties C11,
    C12, C18) n-gram components are repeatable. *)
Theorem C33_static : forall (F : ofield) (m m' : ngram F) learning,
  c_reach ngram_ops learning m m' -> m' = m.
Proof.
  intros F m m' learning H. induction H as [|m1 m2 H IH S]; auto. subst m1.
  inversion S as [? s c r ? E|? s c r ? E|? s r ? E|? s w n r ? Hl E]; subst; simpl in E.
  - apply bind_Ok in E. destruct E as [a [_ E]]. congruence.
  - apply bind_Ok in E. destruct E as [a [_ E]]. congruence.
  - apply bind_Ok in E. destruct E as [a [_ E]]. apply bind_Ok in E. destruct E as [b [_ E]]. congruence.
  - unfold ng_update in E. congruence.
Qed.
Print Assumptions C33_static.

Theorem C33_component_is_repeatable : forall (F : ofield) (m : ngram F) learning,
  repeatable ngram_ops learning m /\ repeatable_scores ngram_ops learning m.
Proof.
  intros F m learning. split; [constructor|].
  - intros m1 t c u m2 m3 R E R2.
    assert (m1 = m) by (eapply C33_static; eauto). subst.
    assert (m2 = m) by (eapply C33_static; eapply reach_step; [apply reach_refl|eapply (step_next _ learning); eauto]).
    subst. assert (m3 = m) by (eapply C33_static; eauto). subst. eauto.
  - intros m1 R. reflexivity.
  - intros m1 t c u m2 m3 R E R2.
    assert (m1 = m) by (eapply C33_static; eauto). subst.
    assert (m2 = m) by (eapply C33_static; eapply reach_step; [apply reach_refl|eapply (step_score _ learning); eauto]).
    subst. assert (m3 = m) by (eapply C33_static; eauto). subst. eauto.
Qed.
Print Assumptions C33_component_is_repeatable.
