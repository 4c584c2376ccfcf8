(** The cache of the word model holds exact cumulative probabilities. *)
From Coq Require Import Field.
From Verif Require Import Base Field LmModel HubModel HubSpec HubProofs HubMix PpmModel NgramModel NgramSpec
  NgramProofs NgramProps WordModel WordSpec WordLex WordIndex WordRange WordState WordNext.
Local Open Scope Z_scope.

(** Conditions on a model for its cumulative weights to be right: its arcs are labelled from the
    symbol table; and, with an unknown-word token, states without back-off have a final weight. *)
Record arcs_ok {F} (ng : ngram F) : Prop := {
  ao_labels : forall s st a, has_state (ng_fst ng) s st -> In a (symbol_arcs st) ->
    In (a_label a) (map fst (tl (ng_syms ng)));
  ao_final : ng_oov ng = -1 \/
    forall s st, has_state (ng_fst ng) s st -> no_arc 0 st -> ps_final st <> f0
}.

Section Cache.
  Context {F : ofield}.
  Add Field FfieldWc : (f_th F).
  Variable ng : ngram F.
  Variable ws : list str.
  Hypothesis LD : loaded ng.
  Hypothesis AO : arcs_ok ng.
  Let f := ng_fst ng.
  Let num := Z.of_nat (length f).
  Let n := length (ng_syms ng).
  Let wlab (i : nat) : Z := find_label (ng_syms ng) (wat ws (Z.of_nat i)).
  Let K := length ws.

  (** The probability of position [i] (0: the end of the string) and the cumulative one. *)
  Definition pat (s : Z) (i : nat) : car F := match i with O => pf ng s 0 | _ => pf ng s (wlab i) end.
  Fixpoint cumw (s : Z) (i : nat) : car F :=
    match i with O => pat s 0 | S i' => fadd (pat s (S i')) (cumw s i') end.
  Definition weights_ok (s : Z) (w : list (car F)) : Prop :=
    length w = n /\ forall i, (i <= K)%nat -> nth_error w i = Some (cumw s i).

  Let CAN : canonical f := proj1 (ld_facts ng LD).

  Lemma pf_end_here s st : has_state f s st -> ps_final st <> f0 -> pf ng s 0 = ps_final st.
  Proof.
    intros H N. eapply end_prob_fun; [exact CAN|eapply (pf_end f CAN ng eq_refl); eauto|]. eapply end_here; eauto.
  Qed.
  Lemma pf_end_backoff s st g b : has_state f s st -> ps_final st = f0 -> In (Arc 0 g b) (ps_arcs st) ->
    pf ng s 0 = fmul g (pf ng b 0).
  Proof.
    intros H N I. eapply end_prob_fun; [exact CAN|eapply (pf_end f CAN ng eq_refl); eauto|]. eapply end_backoff; eauto.
    destruct (can_dest _ CAN s st _ H I) as [st' Hb]. eapply (pf_end f CAN ng eq_refl); eauto.
  Qed.
  Lemma pf_end_none s st : has_state f s st -> ps_final st = f0 -> no_arc 0 st -> pf ng s 0 = f0.
  Proof.
    intros H N I. eapply end_prob_fun; [exact CAN|eapply (pf_end f CAN ng eq_refl); eauto|]. eapply end_none; eauto.
  Qed.

  (** What is needed of the tables. *)
  Record tables (m : word F) : Prop := {
    tb_ng : wm_ng m = ng;
    tb_indexed : indexed m ws
  }.
  Definition core (m m' : word F) : Prop :=
    exists a ci cs, m' = set_wcache m a ci cs.
  Lemma core_refl m : core m m.
  Proof. exists (wm_accessed m), (wm_cindex m), (wm_caches m). destruct m; reflexivity. Qed.
  Lemma core_trans a b c : core a b -> core b c -> core a c.
  Proof. intros [x [y [z ->]]] [x' [y' [z' ->]]]. exists x', y', z'. reflexivity. Qed.
  Lemma core_set m a ci cs : core m (set_wcache m a ci cs).
  Proof. exists a, ci, cs. reflexivity. Qed.
  Lemma core_tables m m' : core m m' -> tables m -> tables m'.
  Proof. intros [x [y [z ->]]] [T1 T2]. constructor; auto. destruct T2. constructor; auto. Qed.
  Lemma core_fields m m' : core m m' -> wm_ng m' = wm_ng m /\ wm_order m' = wm_order m /\ wm_pos m' = wm_pos m /\
    wm_prev m' = wm_prev m /\ wm_first_chars m' = wm_first_chars m /\ wm_first_ends m' = wm_first_ends m /\
    wm_oov_state m' = wm_oov_state m /\ wm_max_cache m' = wm_max_cache m /\ wm_im m' = wm_im m.
  Proof. clear. intros [x [y [z ->]]]. simpl. repeat split. Qed.

  Record cinv (m : word F) : Prop := {
    cv_len : Z.of_nat (length (wm_cindex m)) = num;
    cv_caches : forall i c, nth_error (wm_caches m) i = Some c ->
      0 <= wc_state c < num /\ vgetZ (wm_cindex m) (wc_state c) = Ok (Z.of_nat i) /\
      weights_ok (wc_state c) (wc_weights c);
    cv_index : forall s i, vgetZ (wm_cindex m) s = Ok i -> 0 <= i ->
      exists c, vgetZ (wm_caches m) i = Ok c /\ wc_state c = s;
    cv_max : Z.of_nat (length (wm_caches m)) <= wm_max_cache m;
    cv_pos : 1 <= wm_max_cache m
  }.
  Definition is_cached (m : word F) (s : Z) : Prop := exists i, vgetZ (wm_cindex m) s = Ok i /\ 0 <= i.

  Lemma cindex_ex m s : cinv m -> 0 <= s < num -> exists i, vgetZ (wm_cindex m) s = Ok i.
  Proof. intros C H. pose proof (cv_len _ C). apply vgetZ_range. lia. Qed.

  Lemma cached_get m s : cinv m -> is_cached m s ->
    exists c, cache_of m s = Ok c /\ wc_state c = s /\ weights_ok s (wc_weights c).
  Proof.
    intros C [i [E P]]. destruct (cv_index _ C _ _ E P) as [c [E2 E3]]. exists c. unfold cache_of. rewrite E. cbn [bind].
    split; auto. split; auto.
    assert (N : nth_error (wm_caches m) (Z.to_nat i) = Some c).
    { unfold vgetZ in E2. destruct (i <? 0); [discriminate|]. apply vget_Ok in E2. auto. }
    destruct (cv_caches _ C _ _ N) as [_ [_ W]]. rewrite E3 in W. auto.
  Qed.

  Lemma vgetZ_nth {A} (l : list A) i a : vgetZ l i = Ok a -> 0 <= i /\ nth_error l (Z.to_nat i) = Some a.
  Proof.
    unfold vgetZ. destruct (Z.ltb_spec i 0); [discriminate|]. intros H2. apply vget_Ok in H2. auto.
  Qed.
  Lemma nth_vgetZ {A} (l : list A) i a : 0 <= i -> nth_error l (Z.to_nat i) = Some a -> vgetZ l i = Ok a.
  Proof. intros H1 H2. unfold vgetZ. destruct (Z.ltb_spec i 0); [lia|]. apply vget_Ok. auto. Qed.

  Lemma touch_ok m s : cinv m -> is_cached m s ->
    exists m', touch m s = Ok m' /\ cinv m' /\ core m m' /\ wm_cindex m' = wm_cindex m.
  Proof.
    intros C [i [E P]]. destruct (cv_index _ C _ _ E P) as [c [E2 E3]]. unfold touch. rewrite E. cbn [bind].
    rewrite E2. cbn [bind]. pose proof (vgetZ_lt _ _ _ _ E2) as L.
    destruct (vsetZ_total (wm_caches m) i (WCache (wc_state c) (wm_accessed m) (wc_weights c)) L) as [cs V].
    rewrite V. cbn [bind]. eexists. split; [reflexivity|]. split; [|split; [apply core_set|reflexivity]].
    apply vsetZ_inv in V. destruct V as [_ [V1 [V2 V3]]].
    constructor; cbn [set_wcache wm_cindex wm_caches wm_max_cache].
    - apply (cv_len _ C).
    - intros j c' N. destruct (Z.eq_dec (Z.of_nat j) i) as [Ej|Ej].
      + assert (N2 : nth_error (wm_caches m) j = Some c).
        { apply vgetZ_nth in E2. destruct E2 as [_ E2]. rewrite <- Ej in E2. rewrite Nat2Z.id in E2. auto. }
        apply vgetZ_nth in V2. destruct V2 as [_ V2]. rewrite <- Ej, Nat2Z.id, N in V2. injection V2 as ->.
        simpl. apply (cv_caches _ C _ _ N2).
      + apply (cv_caches _ C). pose proof (V3 (Z.of_nat j) Ej) as X.
        rewrite (nth_vgetZ cs (Z.of_nat j) c') in X; [|lia|rewrite Nat2Z.id; auto].
        symmetry in X. apply vgetZ_nth in X. rewrite Nat2Z.id in X. tauto.
    - intros t j Et Pj. destruct (Z.eq_dec j i) as [->|Nj].
      + destruct (cv_index _ C _ _ Et Pj) as [c2 [X1 X2]]. rewrite E2 in X1. injection X1 as <-.
        eexists. split; [exact V2|]. auto.
      + rewrite V3 by auto. apply (cv_index _ C _ _ Et Pj).
    - pose proof (cv_max _ C). lia.
    - apply (cv_pos _ C).
  Qed.

  Lemma oldest_lt (l : list (@wcache F)) : forall i best o, (best < i)%nat -> (w_oldest_from i best o l < i + length l)%nat.
  Proof.
    induction l as [|c t IH]; intros i best o H; cbn [w_oldest_from length]; [lia|].
    destruct (wc_accessed c <? o).
    - pose proof (IH (S i) i (@wc_accessed F c) ltac:(lia)). lia.
    - pose proof (IH (S i) best o ltac:(lia)). lia.
  Qed.

  Lemma new_cache_index_ok m s w : cinv m -> 0 <= s < num -> ~ is_cached m s -> weights_ok s w ->
    exists m', new_cache_index m s w = Ok (true, m') /\ cinv m' /\ core m m' /\ is_cached m' s /\
      (forall t, t <> s -> 0 <= t < num -> ~ is_cached m t -> ~ is_cached m' t).
  Proof.
    intros C Hs NC W. pose proof (cv_len _ C) as LEN. unfold new_cache_index.
    destruct (Z.ltb_spec (Z.of_nat (length (wm_caches m))) (wm_max_cache m)) as [L|L].
    - destruct (vsetZ_total (wm_cindex m) s (Z.of_nat (length (wm_caches m))) ltac:(lia)) as [ci V].
      rewrite V. cbn [bind]. apply vsetZ_inv in V. destruct V as [_ [V1 [V2 V3]]].
      eexists. split; [reflexivity|]. split; [|split; [apply core_set|split]].
      + constructor; cbn [set_wcache wm_cindex wm_caches wm_max_cache].
        * lia.
        * intros i c N. destruct (Nat.lt_ge_cases i (length (wm_caches m))) as [Li|Li].
          -- rewrite nth_error_app1 in N by auto. destruct (cv_caches _ C _ _ N) as [A1 [A2 A3]].
             split; auto. split; auto. rewrite V3; auto. intros E. apply NC. exists (Z.of_nat i).
             rewrite <- E. split; auto. lia.
          -- rewrite nth_error_app2 in N by auto. destruct (i - length (wm_caches m))%nat as [|[|]] eqn:D; try discriminate.
             simpl in N. injection N as <-. simpl. split; auto. split; auto.
             rewrite V2. f_equal. lia.
        * intros t i E P. destruct (Z.eq_dec t s) as [->|Nt].
          -- rewrite V2 in E. injection E as <-. exists (WCache s (wm_accessed m) w). split; [|reflexivity].
             apply nth_vgetZ; [lia|]. rewrite Nat2Z.id, nth_error_app2, Nat.sub_diag by lia. reflexivity.
          -- rewrite V3 in E by auto. destruct (cv_index _ C _ _ E P) as [c [A1 A2]]. exists c. split; auto.
             apply vgetZ_nth in A1. destruct A1 as [A0 A1]. apply nth_vgetZ; auto.
             rewrite nth_error_app1; auto. eapply nth_error_Some_lt; eauto.
        * rewrite app_length. simpl. lia.
        * apply (cv_pos _ C).
      + eexists. cbn [set_wcache wm_cindex]. split; [exact V2|lia].
      + intros t Nt _ NCt [i [E P]]. cbn [set_wcache wm_cindex] in E. rewrite V3 in E by auto.
        apply NCt. exists i. auto.
    - pose proof (cv_pos _ C) as CP. unfold w_find_oldest.
      destruct (wm_caches m) as [|c0 cs0] eqn:ECS; [simpl in L; lia|]. cbn [bind].
      set (i := w_oldest_from 1 0 (wc_accessed c0) cs0) in *.
      assert (Li : (i < length (c0 :: cs0))%nat) by (apply (oldest_lt cs0 1 0 (wc_accessed c0)); lia).
      assert (EC : exists c, nth_error (c0 :: cs0) i = Some c).
      { destruct (nth_error (c0 :: cs0) i) eqn:X; eauto. apply nth_error_None in X. lia. }
      destruct EC as [c EC]. rewrite (proj2 (vget_Ok _ _ _ _) EC). cbn [bind]. rewrite <- ECS in *.
      destruct (cv_caches _ C _ _ EC) as [A1 [A2 A3]]. rewrite A2. cbn [bind]. rewrite Z.eqb_refl. cbn [negb].
      destruct (vsetZ_total (wm_cindex m) (wc_state c) (-1) ltac:(lia)) as [ci1 V]. rewrite V. cbn [bind].
      apply vsetZ_inv in V. destruct V as [_ [V1 [V2 V3]]].
      unfold vset. destruct (Nat.ltb_spec i (length (wm_caches m))); [|lia]. cbn [bind].
      destruct (vsetZ_total ci1 s (Z.of_nat i) ltac:(lia)) as [ci2 U]. rewrite U. cbn [bind].
      apply vsetZ_inv in U. destruct U as [_ [U1 [U2 U3]]].
      assert (Ncs : wc_state c <> s).
      { intros E. apply NC. exists (Z.of_nat i). rewrite <- E. split; auto. lia. }
      eexists. split; [reflexivity|]. split; [|split; [apply core_set|split]].
      + constructor; cbn [set_wcache wm_cindex wm_caches wm_max_cache].
        * lia.
        * intros j d N. destruct (Nat.eq_dec j i) as [->|Nj].
          -- rewrite nth_error_upd_eq in N by auto. injection N as <-. simpl. split; auto.
          -- rewrite nth_error_upd_neq in N by auto. destruct (cv_caches _ C _ _ N) as [B1 [B2 B3]].
             split; auto. split; auto. rewrite U3.
             ++ rewrite V3; auto. intros E. rewrite E, A2 in B2. injection B2. lia.
             ++ intros E. apply NC. exists (Z.of_nat j). rewrite <- E. split; auto. lia.
        * intros t j E P. destruct (Z.eq_dec t s) as [->|Nt].
          -- rewrite U2 in E. injection E as <-. exists (WCache s (wm_accessed m) w). split; [|reflexivity].
             apply nth_vgetZ; [lia|]. rewrite Nat2Z.id, nth_error_upd_eq by auto. reflexivity.
          -- rewrite U3 in E by auto. destruct (Z.eq_dec t (wc_state c)) as [->|Nt2].
             ++ rewrite V2 in E. injection E as <-. lia.
             ++ rewrite V3 in E by auto. destruct (cv_index _ C _ _ E P) as [d [B1 B2]]. exists d. split; auto.
                apply vgetZ_nth in B1. destruct B1 as [_ B1]. apply nth_vgetZ; auto.
                rewrite nth_error_upd_neq; auto. intros X. rewrite <- X in B1. rewrite EC in B1. injection B1 as <-.
                congruence.
        * rewrite upd_length. apply (cv_max _ C).
        * apply (cv_pos _ C).
      + eexists. cbn [set_wcache wm_cindex]. split; [exact U2|lia].
      + intros t Nt Ht NCt [j [E P]]. cbn [set_wcache wm_cindex] in E. rewrite U3 in E by auto.
        destruct (Z.eq_dec t (wc_state c)) as [->|Nt2].
        * rewrite V2 in E. injection E as <-. lia.
        * rewrite V3 in E by auto. apply NCt. exists j. auto.
  Qed.

  Lemma safe_diff_add (a c : car F) : fle f0 a = true -> safe_diff (fadd a c) c = a.
  Proof.
    intros P. unfold safe_diff. destruct (fle (fadd a c) c) eqn:E.
    - apply fle_antisym; auto. apply fle_sub in E. apply fle_sub.
      replace (fsub f0 a) with (fsub c (fadd a c)) by ring. auto.
    - ring.
  Qed.

  Lemma wlab_vocab m i : tables m -> (1 <= i <= K)%nat ->
    In (wlab i, wat ws (Z.of_nat i)) (vocab_of (ng_syms ng)) /\ 0 < wlab i.
  Proof.
    intros T H. pose proof (tb_ng _ T) as E.
    assert (LD' : loaded (wm_ng m)) by (rewrite E; auto).
    pose proof (wat_vocab m ws LD' (tb_indexed _ T) (Z.of_nat i) ltac:(fold K; lia)) as I. rewrite E in I.
    split; auto. destruct (vocab_valid ng LD _ _ I) as [_ [X _]]. auto.
  Qed.
  Lemma pat_nonneg m s st i : tables m -> has_state f s st -> (i <= K)%nat -> fle f0 (pat s i) = true.
  Proof.
    intros T H L. destruct i as [|i]; cbn [pat].
    - eapply end_prob_nonneg; [exact CAN|]. eapply (pf_end f CAN ng eq_refl); eauto.
    - destruct (wlab_vocab m (S i) T ltac:(lia)) as [_ P].
      eapply symbol_prob_nonneg; [exact CAN|]. eapply (pf_sym f CAN ng eq_refl); eauto; lia.
  Qed.
  Lemma wlab_inj m i j : tables m -> (1 <= i <= K)%nat -> (1 <= j <= K)%nat -> wlab i = wlab j -> i = j.
  Proof.
    intros T Hi Hj E. pose proof (tb_indexed _ T) as IX. pose proof (tb_ng _ T) as EN.
    pose proof (ix_pos _ _ IX (Z.of_nat i) ltac:(fold K; lia)) as A.
    pose proof (ix_pos _ _ IX (Z.of_nat j) ltac:(fold K; lia)) as B. rewrite EN in A, B.
    fold (wlab i) in A. fold (wlab j) in B. rewrite E, B in A. injection A. lia.
  Qed.

  (** lines 149-155 *)
  Lemma arc_weights_ok m : tables m -> forall (arcs : list (@arc F)) (w : list (car F)) (here : list bool),
    NoDup (map a_label arcs) -> length w = n -> length here = n ->
    (forall a, In a arcs -> 0 <= a_label a) ->
    (forall a, In a arcs -> 0 < a_label a -> In (a_label a) (map fst (tl (ng_syms ng)))) ->
    exists w' here', arc_weights (wm_pos m) arcs w here = Ok (w', here') /\ length w' = n /\ length here' = n /\
      (forall i, (1 <= i <= K)%nat ->
         (nth_error w' i = match arc_with (wlab i) arcs with Some a => Some (a_count a) | None => nth_error w i end) /\
         (nth_error here' i = match arc_with (wlab i) arcs with Some a => Some true | None => nth_error here i end)) /\
      (ng_oov ng = -1 -> nth_error w' 0 = nth_error w 0).
  Proof.
    intros T. pose proof (tb_indexed _ T) as IX. pose proof (tb_ng _ T) as EN.
    pose proof (ix_small _ _ IX) as SM. rewrite EN in SM. fold K n in SM.
    induction arcs as [|a t IH]; intros w here ND LW LH NN LB.
    - exists w, here. cbn [arc_weights arc_with find]. auto 7.
    - cbn [arc_weights]. inversion ND as [|? ? ND1 ND2]; subst.
      assert (TL : forall a', In a' t -> a_label a' <> a_label a).
      { intros a' I E. apply ND1. rewrite <- E. apply in_map. auto. }
      destruct (Z.ltb_spec 0 (a_label a)) as [P|P].
      + (* the position of the label *)
        pose proof (LB a (or_introl eq_refl) P) as IL. apply in_map_iff in IL. destruct IL as [[l u] [El IL]].
        simpl in El. subst l.
        assert (POS : exists i, (i <= K)%nat /\ vgetZ (wm_pos m) (a_label a) = Ok (Z.of_nat i) /\
                      (forall j, (1 <= j <= K)%nat -> (wlab j = a_label a <-> j = i)) /\
                      (ng_oov ng = -1 -> i <> 0%nat)).
        { destruct (str_eqb u unk_symbol) eqn:EU.
          - apply str_eqb_eq in EU. subst u.
            assert (EO : a_label a = ng_oov ng).
            { rewrite <- (label_of ng LD _ _ IL). symmetry. apply (oov_lab ng LD). }
            assert (NV : ~ In (a_label a) (map fst (vocab_of (ng_syms ng)))).
            { intros I. apply in_map_iff in I. destruct I as [[l v] [E1 I]]. simpl in E1. subst l.
              apply filter_In in I. destruct I as [I J]. cbn [snd] in J. apply negb_true_iff in J.
              pose proof (symbol_of ng LD _ _ (tl_in ng LD _ _ I)) as S1.
              pose proof (symbol_of ng LD _ _ (tl_in ng LD _ _ IL)) as S2.
              rewrite <- S1, S2 in J. pose proof (proj2 (str_eqb_eq unk_symbol unk_symbol) eq_refl) as RF. unfold unk_symbol in *. congruence. }
            exists 0%nat. split; [lia|]. split; [|split].
            + apply (ix_pos_other _ _ IX); rewrite EN; auto.
              pose proof (ix_dense _ _ IX) as DN. rewrite EN in DN. eapply DN. apply (tl_in ng LD). eauto.
            + intros j Hj. split; [|lia]. intros E. exfalso. apply NV. rewrite <- E.
              destruct (wlab_vocab m j T Hj) as [X _]. apply (in_map fst) in X. auto.
            + intros X. rewrite EO in P. lia.
          - assert (IV : In (a_label a, u) (vocab_of (ng_syms ng))).
            { apply filter_In. split; auto. cbn [snd]. unfold unk_symbol in EU; rewrite EU. auto. }
            assert (IW : In u ws).
            { pose proof (ix_perm _ _ IX) as PM. rewrite EN in PM. eapply Permutation_in; [apply Permutation_sym; exact PM|].
              apply (in_map snd) in IV. auto. }
            apply In_wat in IW. destruct IW as [i [Hi Wi]].
            assert (EL : wlab (Z.to_nat i) = a_label a).
            { unfold wlab. rewrite Z2Nat.id by lia. rewrite Wi.
              destruct (vocab_valid ng LD _ _ IV) as [X _]. auto. }
            exists (Z.to_nat i). unfold K. split; [lia|]. split; [|split].
            + pose proof (ix_pos _ _ IX i Hi) as X. rewrite EN in X.
              replace i with (Z.of_nat (Z.to_nat i)) in X at 1 by lia. fold (wlab (Z.to_nat i)) in X.
              rewrite EL in X. rewrite X. f_equal. lia.
            + intros j Hj. split; [|intros ->; auto]. intros E. rewrite <- EL in E.
              apply (wlab_inj m) in E; auto. unfold K. lia.
            + lia. }
        destruct POS as [i [Li [PI [PJ PO]]]]. rewrite PI. cbn [bind].
        destruct (vsetZ_total w (Z.of_nat i) (a_count a) ltac:(lia)) as [w1 V]. rewrite V. cbn [bind].
        destruct (vsetZ_total here (Z.of_nat i) true ltac:(lia)) as [h1 U]. rewrite U. cbn [bind].
        apply vsetZ_inv in V. destruct V as [_ [V1 [V2 V3]]].
        apply vsetZ_inv in U. destruct U as [_ [U1 [U2 U3]]].
        destruct (IH w1 h1) as [w' [h' [R1 [R2 [R3 [R4 R5]]]]]]; auto; try lia.
        { intros; apply NN; right; auto. }
        { intros; apply LB; auto; right; auto. }
        assert (NTH : forall (A : Type) (l l1 : list A), length l1 = length l -> forall x,
                  vgetZ l1 (Z.of_nat i) = Ok x -> (forall j, j <> Z.of_nat i -> vgetZ l1 j = vgetZ l j) ->
                  nth_error l1 i = Some x /\ forall j, j <> i -> nth_error l1 j = nth_error l j).
        { intros A l l1 HL x H1 H2. split.
          - apply vgetZ_nth in H1. rewrite Nat2Z.id in H1. tauto.
          - intros j Hj. specialize (H2 (Z.of_nat j) ltac:(lia)). unfold vgetZ, vget in H2.
            destruct (Z.ltb_spec (Z.of_nat j) 0); [lia|]. rewrite Nat2Z.id in H2.
            destruct (nth_error l1 j), (nth_error l j); congruence. }
        destruct (NTH _ w w1 V1 _ V2 V3) as [NW1 NW2]. destruct (NTH _ here h1 U1 _ U2 U3) as [NH1 NH2].
        exists w', h'. split; auto. split; auto. split; auto. split.
        * intros j Hj. destruct (R4 j Hj) as [Q1 Q2]. unfold arc_with in *. cbn [find].
          destruct (Z.eqb_spec (a_label a) (wlab j)) as [E|E].
          -- assert (j = i) by (apply PJ; auto). subst j.
             assert (NF : find (fun a0 => a_label a0 =? wlab i) t = None).
             { destruct (find _ t) as [a'|] eqn:Q; auto. apply find_some in Q. destruct Q as [Q3 Q4].
               apply Z.eqb_eq in Q4. exfalso. apply (TL a' Q3). congruence. }
             rewrite NF in Q1, Q2. rewrite Q1, Q2. auto.
          -- assert (j <> i) by (intros ->; apply E; symmetry; apply PJ; auto).
             rewrite Q1, Q2, NW2, NH2 by auto. auto.
        * intros O. rewrite R5 by auto. apply NW2. specialize (PO O). lia.
      + destruct (IH w here) as [w' [h' [R1 [R2 [R3 [R4 R5]]]]]]; auto.
        { intros; apply NN; right; auto. }
        { intros; apply LB; auto; right; auto. }
        exists w', h'. split; auto. split; auto. split; auto. split; auto.
        intros j Hj. unfold arc_with in *. cbn [find]. destruct (wlab_vocab m j T Hj) as [_ PL].
        destruct (Z.eqb_spec (a_label a) (wlab j)); [lia|]. apply R4; auto.
  Qed.

  (** lines 180-190 *)
  Lemma accumulate_length (g : car F) : forall (w : list (car F)) here bw c b, length (accumulate g c b w here bw) = Nat.min (length w) (length here).
  Proof.
    induction w as [|x w IH]; intros [|h here] bw c b; cbn [accumulate length]; auto. rewrite IH. reflexivity.
  Qed.
  Lemma accumulate_ok m s b g (U : Prop) : tables m ->
    (U -> exists st, has_state f b st) ->
    forall w here bw c bp i0, c = cumw s i0 -> (U -> bp = cumw b i0) ->
    (forall j, (i0 + 1 + j <= K)%nat -> exists x h, nth_error w j = Some x /\ nth_error here j = Some h /\
        (h = true -> x = pat s (i0 + 1 + j)) /\
        (h = false -> U /\ pat s (i0 + 1 + j) = fmul g (pat b (i0 + 1 + j)))) ->
    (U -> forall j, (i0 + 1 + j <= K)%nat -> nth_error bw j = Some (cumw b (i0 + 1 + j))) ->
    forall j, (i0 + 1 + j <= K)%nat -> nth_error (accumulate g c bp w here bw) j = Some (cumw s (i0 + 1 + j)).
  Proof.
    intros T HB. induction w as [|x w IH]; intros here bw c bp i0 Ec Eb HW HBW j Hj.
    - destruct (HW j Hj) as [x [h [X _]]]. destruct j; discriminate.
    - destruct here as [|h here]; [destruct (HW j Hj) as [x' [h [_ [X _]]]]; destruct j; discriminate|].
      cbn [accumulate].
      destruct (HW 0%nat ltac:(lia)) as [x' [h' [X1 [X2 [X3 X4]]]]]. simpl in X1, X2. injection X1 as <-. injection X2 as <-.
      assert (OWN : (if h then x else fmul g (safe_diff (match bw with [] => f0 | b0 :: _ => b0 end) bp)) = pat s (i0 + 1)).
      { rewrite Nat.add_0_r in *. destruct h; [auto|]. destruct (X4 eq_refl) as [u X5].
        pose proof (HBW u 0%nat ltac:(lia)) as Y. rewrite Nat.add_0_r in Y.
        destruct bw as [|b0 bw]; [discriminate|]. simpl in Y. injection Y as ->. rewrite (Eb u).
        rewrite Nat.add_1_r in *. cbn [cumw]. rewrite safe_diff_add; auto.
        destruct (HB u) as [st Hst]. eapply (pat_nonneg m); eauto. lia. }
      assert (CUM : fadd (if h then x else fmul g (safe_diff (match bw with [] => f0 | b0 :: _ => b0 end) bp)) c = cumw s (i0 + 1)).
      { rewrite OWN, Ec, Nat.add_1_r. reflexivity. }
      rewrite CUM. destruct j as [|j].
      + cbn [nth_error]. rewrite Nat.add_0_r. reflexivity.
      + cbn [nth_error]. replace (i0 + 1 + S j)%nat with ((i0 + 1) + 1 + j)%nat by lia.
        apply IH; auto; try lia.
        * intros u. specialize (HBW u 0%nat ltac:(lia)). rewrite Nat.add_0_r in HBW.
          destruct bw as [|b0 bw]; [discriminate|]. simpl in HBW. injection HBW as ->. auto.
        * intros k Hk. destruct (HW (S k) ltac:(lia)) as [y [h2 Y]]. exists y, h2.
          replace (i0 + 1 + 1 + k)%nat with (i0 + 1 + S k)%nat by lia. auto.
        * intros u k Hk. specialize (HBW u (S k) ltac:(lia)).
          replace (i0 + 1 + 1 + k)%nat with (i0 + 1 + S k)%nat by lia.
          destruct bw as [|b0 bw]; [discriminate|auto].
  Qed.

  Lemma n_pos m : tables m -> (K < n)%nat.
  Proof. intros T. pose proof (ix_small _ _ (tb_indexed _ T)) as X. rewrite (tb_ng _ T) in X. exact X. Qed.

  Lemma nth_tl {A} (l : list A) i : nth_error (tl l) i = nth_error l (S i).
  Proof. destruct l; destruct i; reflexivity. Qed.
  Lemma nth_repeat {A} (x : A) k i : (i < k)%nat -> nth_error (repeat x k) i = Some x.
  Proof. revert i. induction k as [|k IH]; intros [|i] H; simpl; try lia; auto. apply IH. lia. Qed.
  Lemma length_tl {A} (l : list A) : length (tl l) = (length l - 1)%nat.
  Proof. destruct l; simpl; lia. Qed.

  Lemma uncached_index m s i : ~ is_cached m s -> vgetZ (wm_cindex m) s = Ok i -> (0 <=? i) = false.
  Proof. intros NC E. destruct (Z.leb_spec 0 i); auto. exfalso. apply NC. exists i. auto. Qed.
  Lemma index_uncached m s i : vgetZ (wm_cindex m) s = Ok i -> (0 <=? i) = false -> ~ is_cached m s.
  Proof. intros E L [j [E2 P]]. rewrite E in E2. injection E2 as <-. lia. Qed.

  Lemma fill_weights_ok (rk : Z -> nat) :
    (forall s st g b, has_state f s st -> In (Arc 0 g b) (ps_arcs st) -> (rk b < rk s)%nat) ->
    forall fuel m s, tables m -> cinv m -> 0 <= s < num -> (rk s < fuel)%nat ->
    exists w m1, fill_weights fuel m s = Ok (w, m1) /\ weights_ok s w /\ cinv m1 /\ core m m1 /\
      (forall t, 0 <= t < num -> (rk s <= rk t)%nat -> ~ is_cached m t -> ~ is_cached m1 t).
  Proof.
    intros RK. induction fuel as [|fuel IH]; intros m s T C Hs L; [lia|].
    cbn [fill_weights]. destruct (cindex_ex m s C Hs) as [i Ei]. rewrite Ei. cbn [bind].
    destruct (0 <=? i) eqn:Li.
    { destruct (cached_get m s C) as [c [E1 [E2 E3]]]; [exists i; split; auto; lia|].
      unfold cache_of in E1. rewrite Ei in E1. cbn [bind] in E1. rewrite E1. cbn [bind].
      exists (wc_weights c), m. split; auto. split; auto. split; auto. split; auto. apply core_refl. }
    pose proof (tb_ng _ T) as EN. unfold w_fst. rewrite EN. fold f.
    destruct (proj2 (has_state_ex f s) Hs) as [st Hst].
    rewrite (has_state_get _ _ _ Hst). cbn [bind].
    rewrite (ix_len_order _ _ (tb_indexed _ T)), EN. fold n.
    pose proof (n_pos m T) as NP.
    destruct (arc_weights_ok m T (ps_arcs st) (repeat f0 n) (repeat false n)) as [w [here [R1 [R2 [R3 [R4 R5]]]]]].
    { apply (can_labels _ CAN s st Hst). }
    { apply repeat_length. }
    { apply repeat_length. }
    { intros a I. apply (can_label_nonneg _ CAN s st a Hst I). }
    { intros a I P. apply (ao_labels _ AO s st a Hst). apply filter_In. split; auto.
      destruct (Z.eqb_spec (a_label a) 0); [lia|reflexivity]. }
    rewrite R1. cbn [bind].
    assert (PATW : forall j, (1 <= j <= K)%nat -> exists x h, nth_error w j = Some x /\ nth_error here j = Some h /\
               (h = true -> x = pat s j) /\ (h = false -> no_arc (wlab j) st /\ x = f0)).
    { intros j Hj. destruct (R4 j Hj) as [Q1 Q2]. destruct (wlab_vocab m j T Hj) as [_ PL].
      rewrite !nth_repeat in * by lia.
      destruct (arc_with (wlab j) (ps_arcs st)) as [[l x d]|] eqn:EA.
      - apply arc_with_In in EA. destruct EA as [A1 A2]. simpl in A2. subst l.
        exists x, true. split; auto. split; auto. split; [|discriminate]. intros _.
        destruct j as [|j]; [lia|]. cbn [pat]. symmetry. eapply (pf_here f CAN ng eq_refl); eauto; lia.
      - apply arc_with_None in EA. exists f0, false. split; auto. split; auto. split; [discriminate|]. auto. }
    destruct (backoff_cases f s st Hst) as [[g [b IB]]|NB].
    - rewrite (backoff_some f CAN s st g b Hst IB). cbn [bind].
      destruct (can_dest _ CAN s st _ Hst IB) as [stb Hb]. cbn [a_next] in Hb.
      assert (Vb : 0 <= b < num) by (apply has_state_ex; eauto).
      destruct (Z.eqb_spec b (-1)) as [X|_]; [lia|].
      pose proof (RK s st g b Hst IB) as RL.
      destruct (cindex_ex m b C Vb) as [bi Ebi]. rewrite Ebi. cbn [bind].
      assert (STEP : exists m1, (if 0 <=? bi then Ok (true, m)
                       else let* (wb, m') := fill_weights fuel m b in new_cache_index m' b wb) = Ok (true, m1) /\
                     cinv m1 /\ core m m1 /\ is_cached m1 b /\
                     (forall t, 0 <= t < num -> (rk s <= rk t)%nat -> ~ is_cached m t -> ~ is_cached m1 t)).
      { destruct (0 <=? bi) eqn:Lbi.
        - exists m. split; auto. split; auto. split; [apply core_refl|]. split; auto. exists bi. split; auto. lia.
        - destruct (IH m b T C Vb ltac:(lia)) as [wb [m' [F1 [F2 [F3 [F4 F5]]]]]]. rewrite F1. cbn [bind].
          assert (NCb : ~ is_cached m' b).
          { apply F5; auto. eapply index_uncached; eauto. }
          destruct (new_cache_index_ok m' b wb F3 Vb NCb F2) as [m1 [G1 [G2 [G3 [G4 G5]]]]].
          exists m1. split; auto. split; auto. split; [eapply core_trans; eauto|]. split; auto.
          intros t Ht Lt NCt. apply G5; auto.
          + intros ->. lia.
          + apply F5; auto. lia. }
      destruct STEP as [m1 [S1 [S2 [S3 [S4 S5]]]]]. rewrite S1. cbn [bind].
      destruct (cached_get m1 b S2 S4) as [c [D1 [D2 [D3 D4]]]]. rewrite D1. cbn [bind].
      destruct (touch_ok m1 b S2 S4) as [m2 [T1 [T2 [T3 T4]]]]. rewrite T1. cbn [bind].
      destruct (wc_weights c) as [|b0 bt] eqn:EW; [simpl in D3; lia|].
      assert (E0 : b0 = pf ng b 0).
      { specialize (D4 0%nat ltac:(lia)). simpl in D4. injection D4 as ->. reflexivity. }
      destruct w as [|w0 wt]; [simpl in R2; lia|]. cbn [vget nth_error bind].
      change (vget (w0 :: wt) 0) with (@Ok (car F) w0). cbn [bind].
      destruct here as [|h0 ht]; [simpl in R3; lia|]. cbn [tl].
      assert (W0 : (if negb (feqb (ps_final st) f0) then ps_final st else fmul b0 g) = pf ng s 0).
      { destruct (feqb (ps_final st) f0) eqn:EF; cbn [negb].
        - apply feqb_eq in EF. rewrite (pf_end_backoff s st g b Hst EF IB), E0. ring.
        - symmetry. apply (pf_end_here s st Hst). intros X. apply feqb_eq in X. congruence. }
      rewrite W0.
      exists (pf ng s 0 :: accumulate g (pf ng s 0) b0 wt ht bt), m2. split; [reflexivity|].
      split; [|split; [auto|split; [eapply core_trans; eauto|]]].
      + split.
        * cbn [length]. rewrite accumulate_length. simpl in R2, R3. lia.
        * intros [|j] Hj; [reflexivity|]. cbn [nth_error].
          apply (accumulate_ok m s b g True T) with (i0 := 0%nat) (j := j); auto; try lia.
          -- intros _. eauto.
          -- intros k Hk. cbn [Nat.add] in *. destruct (PATW (S k) ltac:(lia)) as [x [h [P1 [P2 [P3 P4]]]]].
             exists x, h. split; auto. split; auto. split; auto. intros Eh. split; auto.
             destruct (P4 Eh) as [P5 _]. destruct (wlab_vocab m (S k) T ltac:(lia)) as [_ PL].
             cbn [pat]. eapply (pf_backoff f CAN ng eq_refl); eauto; lia.
          -- intros _ k Hk. cbn [Nat.add] in *. apply (D4 (S k)). lia.
      + intros t Ht Lt NCt [j [J1 J2]]. rewrite T4 in J1. apply (S5 t Ht Lt NCt). exists j. auto.
    - rewrite (backoff_none f s st Hst NB). cbn [bind]. change (-1 =? -1) with true. cbv iota. cbn [bind].
      destruct w as [|w0 wt]; [simpl in R2; lia|]. change (vget (w0 :: wt) 0) with (@Ok (car F) w0). cbn [bind tl].
      assert (W0 : (if negb (feqb (ps_final st) f0) then ps_final st else w0) = pf ng s 0).
      { destruct (feqb (ps_final st) f0) eqn:EF; cbn [negb].
        - apply feqb_eq in EF. rewrite (pf_end_none s st Hst EF NB).
          destruct (ao_final _ AO) as [O|O].
          + specialize (R5 O). rewrite nth_repeat in R5 by lia. simpl in R5. congruence.
          + exfalso. apply (O s st Hst NB). auto.
        - symmetry. apply (pf_end_here s st Hst). intros X. apply feqb_eq in X. congruence. }
      rewrite W0.
      eexists. exists m. split; [reflexivity|]. split; [|split; [auto|split; [apply core_refl|auto]]].
      split.
      + cbn [length]. rewrite accumulate_length, length_tl, repeat_length. simpl in R2. lia.
      + intros [|j] Hj; [reflexivity|]. cbn [nth_error].
        apply (accumulate_ok m s s f1 False T) with (i0 := 0%nat) (j := j); auto; try lia; try tauto.
        intros k Hk. cbn [Nat.add] in *. destruct (PATW (S k) ltac:(lia)) as [x [h [P1 [P2 [P3 P4]]]]].
        exists x, true. split; auto. split; [rewrite nth_tl; apply nth_repeat; lia|]. split; [|discriminate].
        intros _. destruct h; [auto|]. destruct (P4 eq_refl) as [P5 ->].
        destruct (wlab_vocab m (S k) T ltac:(lia)) as [_ PL].
        cbn [pat]. symmetry. eapply (pf_none f CAN ng eq_refl); eauto; lia.
  Qed.

  Lemma ensure_ok m s : tables m -> cinv m -> 0 <= s < num ->
    exists m1, ensure m s = Ok (true, m1) /\ cinv m1 /\ core m m1 /\ is_cached m1 s.
  Proof.
    intros T C Hs. unfold ensure. destruct (cindex_ex m s C Hs) as [i Ei]. rewrite Ei. cbn [bind].
    destruct (0 <=? i) eqn:Li.
    - exists m. split; auto. split; auto. split; [apply core_refl|]. exists i. split; auto. lia.
    - destruct (bounded_rank f CAN) as [rk [K1 K2]].
      destruct (proj2 (has_state_ex f s) Hs) as [st Hst]. pose proof (K1 s st Hst).
      destruct (fill_weights_ok rk K2 (S (length (w_fst m))) m s T C Hs) as [w [m1 [F1 [F2 [F3 [F4 F5]]]]]].
      { unfold w_fst. rewrite (tb_ng _ T). fold f. lia. }
      rewrite F1. cbn [bind].
      destruct (new_cache_index_ok m1 s w F3 Hs) as [m2 [G1 [G2 [G3 [G4 G5]]]]]; auto.
      { apply F5; auto. eapply index_uncached; eauto. }
      exists m2. split; auto. split; auto. split; auto. eapply core_trans; eauto.
  Qed.
End Cache.
