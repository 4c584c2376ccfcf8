(** A model that was read satisfies the invariants. *)
From Coq Require Import Field.
From Verif Require Import Base Field LmModel HubModel HubSpec HubProofs HubMix PpmModel NgramModel NgramSpec
  NgramProofs NgramProps WordModel WordSpec WordLex WordIndex WordRange WordState WordNext WordCache LmProofs
  WordScores WordPredict.
Local Open Scope Z_scope.

(** Conditions on the symbol table and the automaton of the file, stated of the model read from it:
    - the table is a table of distinct non-empty symbols after epsilon;
    - there is a word, and no word contains a space;
    - an unknown-word token, if any, has the last label;
    - arcs carry labels of the table, and (with an unknown-word token) a state without back-off is
      final. *)
Record word_file_ok {F} (m : word F) : Prop := {
  wf_table : table_ok (ng_syms (wm_ng m));
  wf_words : wvocab m <> [];
  wf_spaces : forall x w, In (x, w) (wvocab m) -> ~ In 32 w;
  wf_unk : forall x, In (x, [60; 117; 110; 107; 62]) (ng_syms (wm_ng m)) -> x = Z.of_nat (length (ng_syms (wm_ng m))) - 1;
  wf_arcs : arcs_ok (wm_ng m)
}.

Lemma fold_max_ge (l : list (Z * str)) : forall a,
  a <= fold_left (fun mx e => Z.max mx (Z.of_nat (length (snd e)))) l a /\
  forall x w, In (x, w) l -> Z.of_nat (length w) <= fold_left (fun mx e => Z.max mx (Z.of_nat (length (snd e)))) l a.
Proof.
  induction l as [|e t IH]; intros a; cbn [fold_left].
  - split; [lia|intros ? ? []].
  - destruct (IH (Z.max a (Z.of_nat (length (snd e))))) as [A B]. split; [lia|]. intros x w [->|I].
    + cbn [snd] in *. lia.
    + eapply B; eauto.
Qed.

Lemma read_parts {F : ofield} (accept : list (@pstate F) -> Z -> bool) hi opt sg m :
  w_read accept hi opt sg = Ok m -> exists ng m0, ng_read accept sg = Ok ng /\ establish ng = Ok m0 /\
    ensure (Word (wm_ng m0) (wm_order m0) (wm_pos m0) (wm_prev m0) (wm_first_chars m0) (wm_first_ends m0)
                 (wm_oov_state m0) (if hi <? opt then opt else 2000) 0 (repeat (-1) (length (ng_fst ng))) [] (wm_im m0)) (ng_start ng) = Ok (true, m).
  Proof.
    intros R. unfold w_read in R. apply bind_Ok in R. destruct R as [ng [E1 R]].
    apply bind_Ok in R. destruct R as [m0 [E2 R]]. exists ng, m0. split; auto. split; auto.
    apply bind_Ok in R. destruct R as [[ok m'] [E3 R]]. destruct ok; [|discriminate]. injection R as <-. exact E3.
  Qed.

Lemma ensure_ng {F} fuel : forall (m : word F) s w m1, fill_weights fuel m s = Ok (w, m1) -> core m m1.
Proof.
  assert (NCI : forall (m : word F) s w b m1, new_cache_index m s w = Ok (b, m1) -> core m m1).
  { intros m s w b m1 H. unfold new_cache_index in H.
    destruct (Z.of_nat (length (wm_caches m)) <? wm_max_cache m).
    - apply bind_Ok in H. destruct H as [ci [_ H]]. injection H as _ <-. apply core_set.
    - apply bind_Ok in H. destruct H as [i [_ H]]. apply bind_Ok in H. destruct H as [c [_ H]].
      apply bind_Ok in H. destruct H as [oi [_ H]]. destruct (negb _).
      + injection H as _ <-. apply core_refl.
      + apply bind_Ok in H. destruct H as [ci1 [_ H]]. apply bind_Ok in H. destruct H as [cs [_ H]].
        apply bind_Ok in H. destruct H as [ci2 [_ H]]. injection H as _ <-. apply core_set. }
  assert (TCH : forall (m : word F) s m1, touch m s = Ok m1 -> core m m1).
  { intros m s m1 H. unfold touch in H. apply bind_Ok in H. destruct H as [i [_ H]].
    apply bind_Ok in H. destruct H as [c [_ H]]. apply bind_Ok in H. destruct H as [cs [_ H]]. injection H as <-. apply core_set. }
  induction fuel as [|fuel IH]; intros m s w m1 H; cbn [fill_weights] in H; apply bind_Ok in H; destruct H as [i [_ H]].
  - destruct (0 <=? i); [|discriminate]. apply bind_Ok in H. destruct H as [c [_ H]]. injection H as _ <-. apply core_refl.
  - destruct (0 <=? i).
    { apply bind_Ok in H. destruct H as [c [_ H]]. injection H as _ <-. apply core_refl. }
    apply bind_Ok in H. destruct H as [st [_ H]]. apply bind_Ok in H. destruct H as [[w1 here] [_ H]].
    apply bind_Ok in H. destruct H as [[b g] [_ H]]. apply bind_Ok in H. destruct H as [[bw m2] [E H]].
    apply bind_Ok in H. destruct H as [w0 [_ H]]. injection H as _ <-.
    destruct (b =? -1); [injection E as _ <-; apply core_refl|].
    apply bind_Ok in E. destruct E as [bi [_ E]]. apply bind_Ok in E. destruct E as [[ok m3] [E1 E]].
    assert (C3 : core m m3).
    { destruct (0 <=? bi); [injection E1 as _ <-; apply core_refl|].
      apply bind_Ok in E1. destruct E1 as [[wb m4] [E2 E1]]. apply IH in E2. apply NCI in E1. eapply core_trans; eauto. }
    destruct ok; [|injection E as _ <-; auto].
    apply bind_Ok in E. destruct E as [c [_ E]]. apply bind_Ok in E. destruct E as [m5 [E2 E]]. injection E as _ <-.
    apply TCH in E2. eapply core_trans; eauto.
Qed.
Lemma ensure_core {F} (m : word F) s b m1 : ensure m s = Ok (b, m1) -> core m m1.
Proof.
  unfold ensure. intros H. apply bind_Ok in H. destruct H as [i [_ H]]. destruct (0 <=? i).
  - injection H as _ <-. apply core_refl.
  - apply bind_Ok in H. destruct H as [[w m2] [E H]]. apply ensure_ng in E. eapply core_trans; [exact E|].
    unfold new_cache_index in H.
    destruct (Z.of_nat (length (wm_caches m2)) <? wm_max_cache m2).
    + apply bind_Ok in H. destruct H as [ci [_ H]]. injection H as _ <-. apply core_set.
    + apply bind_Ok in H. destruct H as [j [_ H]]. apply bind_Ok in H. destruct H as [c [_ H]].
      apply bind_Ok in H. destruct H as [oi [_ H]]. destruct (negb _).
      * injection H as _ <-. apply core_refl.
      * apply bind_Ok in H. destruct H as [ci1 [_ H]]. apply bind_Ok in H. destruct H as [cs [_ H]].
        apply bind_Ok in H. destruct H as [ci2 [_ H]]. injection H as _ <-. apply core_set.
Qed.

Lemma establish_ng {F} (ng : ngram F) m0 : establish ng = Ok m0 -> wm_ng m0 = ng.
Proof.
  intros H. unfold establish in H. apply bind_Ok in H. destruct H as [z [_ H]]. apply bind_Ok in H. destruct H as [lx [_ H]].
  apply bind_Ok in H. destruct H as [[[idx order] prev] [_ H]]. destruct (negb _); [discriminate|].
  destruct (get_state _ _ _ _ _) as [[os im']|]; [|discriminate]. injection H as <-. reflexivity.
Qed.

Theorem read_winv {F : ofield} (accept : list (@pstate F) -> Z -> bool) hi opt sg m :
  checks_model accept -> 0 <= hi -> w_read accept hi opt sg = Ok m -> word_file_ok m ->
  exists ws, winv m ws /\ StronglySorted str_lt ws /\ Permutation ws (map snd (wvocab m)) /\
    place_of m ws (ng_start (wm_ng m)) (Typing (ng_start (wm_ng m)) []) /\
    wm_max_cache m = (if hi <? opt then opt else 2000).
Proof.
  intros CH HI READ OK. destruct (read_parts accept hi opt sg m READ) as [ng [m0 [E1 [E2 E3]]]].
  pose proof (establish_ng _ _ E2) as N0.
  pose proof (ensure_core _ _ _ _ E3) as CO. destruct (core_fields _ _ CO) as [F1 [F2 [F3 [F4 [F5 [F6 [F7 [F8 F9]]]]]]]].
  cbn [wm_ng wm_order wm_pos wm_prev wm_first_chars wm_first_ends wm_oov_state wm_max_cache wm_im] in F1, F2, F3, F4, F5, F6, F7, F8, F9.
  rewrite N0 in F1.
  assert (LD : loaded ng).
  { constructor; [exists accept, sg; auto|]. rewrite <- F1. apply (wf_table _ OK). }
  destruct (ld_facts ng LD) as [CAN [NRM [VST [VUN [OOV _]]]]].
  assert (UK : ng_oov ng = -1 \/ ng_oov ng = Z.of_nat (length (ng_syms ng)) - 1).
  { rewrite OOV. unfold find_label. destruct (find _ _) as [[l u]|] eqn:Q; [|auto]. right.
    apply find_some in Q. destruct Q as [Q1 Q2]. cbn [snd] in Q2. apply str_eqb_eq in Q2. subst u.
    pose proof (wf_unk _ OK l) as X. rewrite F1 in X. auto. }
  destruct (establish_indexed ng LD m0 UK E2) as [ws [IX [_ [OS IM]]]].
  set (mc := if hi <? opt then opt else 2000) in *.
  set (m1 := Word (wm_ng m0) (wm_order m0) (wm_pos m0) (wm_prev m0) (wm_first_chars m0) (wm_first_ends m0)
              (wm_oov_state m0) mc 0 (repeat (-1) (length (ng_fst ng))) [] (wm_im m0)) in *.
  assert (IX1 : indexed m1 ws) by (destruct IX; constructor; auto).
  assert (T1 : tables ng ws m1) by (constructor; auto).
  assert (C1 : cinv ng ws m1).
  { constructor; cbn [m1 wm_cindex wm_caches wm_max_cache].
    - rewrite repeat_length. reflexivity.
    - intros [|i] c X; discriminate.
    - intros s i X P. exfalso. apply vgetZ_nth in X. destruct X as [_ X]. apply nth_error_In, repeat_spec in X. lia.
    - unfold mc. destruct (Z.ltb_spec hi opt); simpl; lia.
    - unfold mc. destruct (Z.ltb_spec hi opt); lia. }
  assert (AO : arcs_ok ng) by (rewrite <- F1; apply (wf_arcs _ OK)).
  destruct (ensure_ok ng ws LD AO m1 (ng_start ng) T1 C1 VST) as [m2 [G1 [G2 [G3 _]]]].
  rewrite E3 in G1. injection G1 as ->.
  pose proof (core_tables _ _ _ _ G3 T1) as T2.
  assert (VW : wvocab m2 = vocab_of (ng_syms ng)) by (unfold wvocab; rewrite F1; auto).
  pose proof (ix_perm _ _ (tb_indexed _ _ _ T2)) as PERM. rewrite F1 in PERM.
  assert (NEW : ws <> []).
  { intros ->. apply Permutation_nil in PERM. apply (wf_words _ OK). rewrite VW.
    destruct (vocab_of (ng_syms ng)); [auto|discriminate]. }
  exists ws. split; [|split; [apply (ix_sorted _ _ IX)|split; [rewrite VW; auto|split]]].
  - constructor; [|rewrite F1; auto|rewrite F1; auto].
    constructor; auto.
    + rewrite F1. auto.
    + apply (tb_indexed _ _ _ T2).
    + intros w I. apply (Permutation_in _ PERM) in I. apply in_map_iff in I. destruct I as [[x w'] [E I]].
      simpl in E. subst w'. apply (wf_spaces _ OK x). rewrite VW. auto.
    + unfold w_num, w_fst. rewrite F1, F9, IM.
      constructor; cbn [im_explicit im_max_prefix im_begin im_end im_states im_map]; auto; try lia.
      * intros w I. apply (Permutation_in _ PERM) in I. apply in_map_iff in I. destruct I as [[x w'] [E I]].
        simpl in E. subst w'. apply filter_In in I. destruct I as [I _]. apply (tl_in ng LD) in I.
        unfold max_len. destruct (fold_max_ge (ng_syms ng) 0) as [_ MX]. eapply MX; eauto.
      * intros [|[|j]] ms pl b e X; try discriminate. congruence.
      * intros [|[|j]] k s X; cbn [nth] in X; try discriminate.
        unfold map_find in X. cbn [find fst] in X. destruct (pair_eqb (-1, -1) k) eqn:Q; [|discriminate].
        apply pair_eqb_eq in Q. subst k. injection X as <-. exists (-1). split; [lia|].
        rewrite Z.sub_diag. reflexivity.
      * intros [|[|j]] ms pl b e X; try discriminate. injection X as <- <- <- <-. cbn. f_equal. lia.
    + unfold w_num, w_fst. rewrite F1, F7, OS. reflexivity.
  - simpl. unfold w_num, w_fst. rewrite F1. split; [reflexivity|exact VST].
  - exact F8.
Qed.

(** Preservation. *)
Lemma winv_core {F} (m m' : word F) ws : winv m ws -> core m m' -> cinv (wm_ng m) ws m' -> winv m' ws.
Proof.
  intros [B A C] CO C'. destruct (core_fields _ _ CO) as [F1 [F2 [F3 [F4 [F5 [F6 [F7 [F8 F9]]]]]]]].
  constructor; rewrite ?F1; auto. destruct B as [B1 B2 B3 B4 B5 B6].
  assert (EW : w_num m' = w_num m) by (unfold w_num, w_fst; rewrite F1; auto).
  constructor; rewrite ?F1, ?EW, ?F7, ?F9; auto.
  assert (T : tables (wm_ng m) ws m) by (constructor; auto).
  apply (core_tables _ _ _ _ CO T).
Qed.
Lemma place_core {F} (m m' : word F) ws s pl : core m m' -> place_of m ws s pl -> place_of m' ws s pl.
Proof.
  intros CO. destruct (core_fields _ _ CO) as [F1 [F2 [F3 [F4 [F5 [F6 [F7 [F8 F9]]]]]]]].
  unfold w_num, w_fst. rewrite F1, F9. auto.
Qed.
Lemma winv_im {F} (m : word F) ws im : winv m ws -> im_ok (w_num m) ws im -> winv (set_im m im) ws.
Proof.
  intros [B A C] I. constructor; auto.
  - destruct B as [B1 B2 B3 B4 B5 B6]. constructor; auto. destruct B2. constructor; auto.
  - destruct C. constructor; auto.
Qed.
