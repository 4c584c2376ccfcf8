(** NextState of the word model follows the typing relation of the specification. *)
From Verif Require Import Base Field LmModel HubModel HubSpec HubProofs HubMix PpmModel NgramModel NgramSpec
  NgramProofs NgramProps WordModel WordSpec WordLex WordIndex WordRange WordState.
Local Open Scope Z_scope.

Definition wvocab {F} (m : word F) : list (Z * str) := vocab_of (ng_syms (wm_ng m)).

Record wbase {F} (m : word F) (ws : list str) : Prop := {
  wb_loaded : loaded (wm_ng m);
  wb_indexed : indexed m ws;
  wb_spaces : no_spaces ws;
  wb_words : ws <> [];
  wb_im : im_ok (w_num m) ws (wm_im m);
  wb_oov : wm_oov_state m = w_num m
}.
Notation place_of m ws := (stands (w_num m) ws (wm_im m)).

Section Next.
  Context {F : ofield}.
  Variable m : word F.
  Variable ws : list str.
  Hypothesis B : wbase m ws.
  Let f := w_fst m.
  Let num := w_num m.

  Lemma begins_ws p : existsb (prefixb p) ws = begins (wvocab m) p.
  Proof.
    unfold begins, words, wvocab. pose proof (ix_perm _ _ (wb_indexed _ _ B)) as P.
    apply eq_true_iff_eq. rewrite !existsb_exists. split; intros [w [I H]]; exists w; split; auto.
    - eapply Permutation_in; eauto.
    - eapply Permutation_in; [apply Permutation_sym|]; eauto.
  Qed.
  Lemma word_ws p : In p ws <-> is_word (wvocab m) p.
  Proof.
    unfold is_word, words, wvocab. pose proof (ix_perm _ _ (wb_indexed _ _ B)) as P.
    split; intros I; [eapply Permutation_in; eauto|eapply Permutation_in; [apply Permutation_sym|]; eauto].
  Qed.
  Lemma word_nonempty w : In w ws -> w <> [].
  Proof.
    intros I. apply word_ws in I. unfold is_word, words in I. apply in_map_iff in I.
    destruct I as [[x w'] [E I]]. simpl in E. subst w'.
    destruct (vocab_valid (wm_ng m) (wb_loaded _ _ B) _ _ I) as [_ [_ [H _]]]. auto.
  Qed.
  Lemma word_label w : In w ws -> In (find_label (ng_syms (wm_ng m)) w, w) (wvocab m).
  Proof.
    intros I. apply In_wat in I. destruct I as [i [Hi <-]].
    apply (wat_vocab m ws (wb_loaded _ _ B) (wb_indexed _ _ B)). auto.
  Qed.
  Lemma begins_32 p : begins (wvocab m) (p ++ [32]) = false.
  Proof.
    rewrite <- begins_ws. destruct (existsb _ _) eqn:E; auto. exfalso.
    apply existsb_exists in E. destruct E as [w [I P]]. apply prefixb_snoc in P. destruct P as [_ P].
    apply nth_error_In in P. apply (wb_spaces _ _ B w I P).
  Qed.

  Lemma map_length_ge s s0 p : p <> [] -> place_of m ws s (Typing s0 p) ->
    Z.of_nat (length p) <= Z.of_nat (length (im_map (wm_im m))).
  Proof.
    intros N H. destruct p as [|c p]; [congruence|]. destruct H as [H1 [H2 [b [e [H3 H4]]]]].
    pose proof (io_complete _ _ _ (wb_im _ _ B) _ _ _ _ _ H3) as X.
    destruct (Nat.lt_ge_cases (Z.to_nat (Z.of_nat (length (c :: p)) - 1)) (length (im_map (wm_im m)))) as [L|L].
    - simpl length in *. lia.
    - rewrite nth_overflow in X by auto. discriminate.
  Qed.
  Lemma map_nonempty : 1 <= Z.of_nat (length (im_map (wm_im m))).
  Proof.
    pose proof (io_complete _ _ _ (wb_im _ _ B) _ _ _ _ _ (io_zero _ _ _ (wb_im _ _ B))) as X.
    destruct (im_map (wm_im m)); [discriminate|]. simpl length. lia.
  Qed.

  Lemma unigram_place : place_of m ws (ng_unigram (wm_ng m)) (Typing (ng_unigram (wm_ng m)) []).
  Proof.
    destruct (ld_facts _ (wb_loaded _ _ B)) as [_ [_ [_ [V _]]]]. simpl. unfold valid_state in V. auto.
  Qed.

  Lemma first_range_any c :
    exists b' e', first_range (wm_first_chars m) (wm_first_ends m) 1 c = Ok (b', e') /\
      (if begins (wvocab m) [c] then range ws [c] b' e' else e' = -1).
  Proof.
    rewrite <- begins_ws.
    pose proof (wb_words _ _ B) as N. pose proof (wb_indexed _ _ B) as IX. pose proof (wb_spaces _ _ B) as NS.
    destruct (Z.eq_dec c 32) as [->|Nc].
    - pose proof (range_nil m ws IX NS N) as R.
      destruct (first_range_grp m ws (nc ws 0) 32 (Z.of_nat (length ws)))
        with (b := 1) (ends := wm_first_ends m) (chars := wm_first_chars m) as [b' [e' [A1 A2]]].
      + intros i l j H1 H2 H3 E. apply (char_convex ws (ix_sorted _ _ IX) NS [] _ _ R i j l); auto.
      + lia.
      + apply (ix_groups _ _ IX N).
      + exists b', e'. split; auto. pose proof (begins_32 []) as X. simpl app in X. rewrite <- begins_ws in X.
        rewrite X. destruct A2 as [[A2 _]|[A2 [A3 A4]]]; auto. exfalso.
        assert (Y : nc ws 0 b' = 32) by (apply A4; lia).
        apply (char_complete ws NS [] 1 _ R) in Y; [|lia].
        apply (word_nonempty (wat ws b')); auto. apply wat_In. lia.
    - apply (first_range_ok m ws IX NS c N Nc).
  Qed.

  Lemma stands_im im' s pl : (exists ext, im_states im' = im_states (wm_im m) ++ ext) ->
    place_of m ws s pl -> stands num ws im' s pl.
  Proof.
    intros [ext E]. destruct pl as [s0 [|c p]|]; simpl; auto.
    intros [H1 [H2 [b [e [H3 H4]]]]]. split; auto. split; auto. exists b, e. split; auto.
    rewrite E, nth_error_app1; auto. eapply nth_error_Some_lt; eauto.
  Qed.

  Theorem next_ok s pl c : place_of m ws s pl -> c <> -1 ->
    exists s' im' pl', w_next_state m s c = Ok (s', set_im m im') /\
      im_ok num ws im' /\ (exists ext, im_states im' = im_states (wm_im m) ++ ext) /\
      types f (wvocab m) (ng_unigram (wm_ng m)) pl c pl' /\ stands num ws im' s' pl'.
  Proof.
    intros H Hc. pose proof (wb_im _ _ B) as I.
    assert (SAME : set_im m (wm_im m) = m) by (destruct m; reflexivity).
    assert (REFL : exists ext, im_states (wm_im m) = im_states (wm_im m) ++ ext)
      by (exists []; rewrite app_nil_r; auto).
    pose proof (stands_valid _ _ _ I _ _ H) as V.
    destruct (ld_facts _ (wb_loaded _ _ B)) as [CAN _].
    unfold w_next_state. destruct pl as [s0 p|].
    - destruct p as [|c0 p'].
      + (* a first letter *)
        destruct H as [-> Hs]. destruct (Z.ltb_spec s0 (w_num m)); [|lia]. unfold next_first_letter.
        destruct (first_range_any c) as [b [e [E1 E2]]]. rewrite E1. cbn [bind].
        destruct (begins (wvocab m) [c]) eqn:BG.
        * pose proof E2 as [R1 _]. destruct (Z.leb_spec 0 e); [|lia].
          destruct (get_state_ok num ws (wm_im m) s0 [c] b e (ix_sorted _ _ (wb_indexed _ _ B)) I Hs
                      ltac:(discriminate) E2 ltac:(simpl length; lia))
            as [t [im' [G1 [G2 [G3 G4]]]]].
          simpl in G1. rewrite G1. exists t, im', (Typing s0 [c]). split; auto. split; auto. split; auto.
          split; auto. constructor. auto.
        * subst e. cbn [Z.leb].  exists (ng_unigram (wm_ng m)), (wm_im m), (Typing (ng_unigram (wm_ng m)) []).
          split; [rewrite SAME; auto|]. split; auto. split; auto. split; [constructor; auto|]. apply unigram_place.
      + set (p := c0 :: p') in *. assert (Np : p <> []) by discriminate.
        destruct (entry_of _ _ _ I _ _ _ Np H) as [b [e [EN R]]].
        assert (NS : num < s) by (destruct H; auto).
        destruct (Z.ltb_spec s (w_num m)); [unfold num in *; lia|]. rewrite (wb_oov _ _ B).
        destruct (Z.eqb_spec s (w_num m)); [unfold num in *; lia|]. cbn [andb].
        assert (Hs0 : 0 <= s0 < num) by (destruct H as [_ [? _]]; auto).
        assert (EM : im_model_state (wm_im m) s = Some s0) by (unfold im_model_state; rewrite EN; auto).
        assert (EP : im_prefix_length (wm_im m) s = Some (Z.of_nat (length p))) by (unfold im_prefix_length; rewrite EN; auto).
        assert (EB : im_symbol_begin (wm_im m) s = Some b) by (unfold im_symbol_begin; rewrite EN; auto).
        assert (EE : im_symbol_end (wm_im m) s = Some e) by (unfold im_symbol_end; rewrite EN; auto).
        rewrite EM, EP. destruct (Z.leb_spec 0 s0); [|lia].
        destruct (Z.eqb_spec c 32) as [->|Nc].
        * (* a space *)
          unfold next_complete. rewrite EB. pose proof R as [R1 [R2 R3]].
          rewrite (ix_order _ _ (wb_indexed _ _ B) b) by lia. cbn [bind].
          assert (Ib : In (wat ws b) ws) by (apply wat_In; lia).
          pose proof (word_label _ Ib) as Lb.
          assert (SY : find_symbol (ng_syms (wm_ng m)) (find_label (ng_syms (wm_ng m)) (wat ws b)) = wat ws b).
          { apply symbol_of; [apply (wb_loaded _ _ B)|]. apply filter_In in Lb.
            apply (tl_in (wm_ng m) (wb_loaded _ _ B)). tauto. }
          rewrite SY.
          assert (Pb : prefixb p (wat ws b) = true) by (apply R3; lia).
          destruct (Z.eqb_spec (Z.of_nat (length (wat ws b))) (Z.of_nat (length p))) as [El|Nl].
          -- assert (Wb : wat ws b = p).
             { apply prefixb_firstn in Pb. rewrite firstn_all2 in Pb by lia. auto. }
             destruct (vocab_valid (wm_ng m) (wb_loaded _ _ B) _ _ Lb) as [_ [Lp _]].
             set (x := find_label (ng_syms (wm_ng m)) (wat ws b)) in *. rewrite Wb in Lb.
             destruct (proj2 (has_state_ex f s0) Hs0) as [st Hst].
             destruct (next_model_ok f CAN (wm_ng m) eq_refl x s0 st ltac:(lia) ltac:(lia) Hst) as [r [D1 D2]].
             rewrite D2. cbn [bind]. 
             exists (match r with Some d => d | None => ng_unigram (wm_ng m) end), (wm_im m),
               (Typing (match r with Some d => d | None => ng_unigram (wm_ng m) end) []).
             split; [rewrite SAME; auto|]. split; auto. split; auto. split; [econstructor; eauto|].
             destruct r as [d|]; [|apply unigram_place]. simpl. split; auto.
             destruct (symbol_dest_valid f x s0 d CAN D1) as [st' Hd].
             apply (proj1 (has_state_ex _ _)). eauto.
          -- cbn [bind]. 
             exists (ng_unigram (wm_ng m)), (wm_im m), (Typing (ng_unigram (wm_ng m)) []).
             split; [rewrite SAME; auto|]. split; auto. split; auto. split; [|apply unigram_place].
             constructor; auto. intros W. apply word_ws in W. apply Nl.
             apply In_wat in W. destruct W as [i [Hi Wi]].
             assert (Bi : b <= i <= e) by (apply R3; auto; rewrite Wi; apply prefixb_refl).
             rewrite (complete_first ws (ix_sorted _ _ (wb_indexed _ _ B)) p b e R i Bi Wi) in Wi. congruence.
        * (* one more letter *)
          destruct (begin_end_ok m ws (wb_loaded _ _ B) (wb_indexed _ _ B) (wb_spaces _ _ B) p b e R s c EB EE Nc Hc)
            as [b' [e' [E1 E2]]].
          rewrite E1. cbn [bind]. rewrite begins_ws in E2.
          destruct (begins (wvocab m) (p ++ [c])) eqn:BG.
          -- pose proof E2 as [R1 _]. destruct (Z.leb_spec 0 b'); [|lia]. destruct (Z.leb_spec 0 e'); [|lia]. cbn [andb].
             pose proof (map_length_ge s s0 p Np H) as ML.
             destruct (get_state_ok num ws (wm_im m) s0 (p ++ [c]) b' e' (ix_sorted _ _ (wb_indexed _ _ B)) I Hs0
                         ltac:(destruct p; discriminate) E2 ltac:(rewrite app_length; simpl length in *; lia))
               as [t [im' [G1 [G2 [G3 G4]]]]].
             replace (Z.of_nat (length p) + 1) with (Z.of_nat (length (p ++ [c]))) by (rewrite app_length; simpl; lia).
             rewrite G1. exists t, im', (Typing s0 (p ++ [c])). split; auto. split; auto. split; auto.
             split; auto. constructor; auto.
          -- destruct E2 as [-> ->]. cbn [Z.leb andb]. 
             exists (w_num m), (wm_im m), Unknown. split; [rewrite SAME; auto|]. split; auto. split; auto. split; [constructor; auto|].
             simpl. auto.
    - (* unknown *)
      simpl in H. subst s. destruct (Z.ltb_spec (w_num m) (w_num m)); [lia|]. rewrite (wb_oov _ _ B).
      rewrite Z.eqb_refl. cbn [andb]. destruct (Z.eqb_spec c 32) as [->|Nc].
      +  exists (ng_unigram (wm_ng m)), (wm_im m), (Typing (ng_unigram (wm_ng m)) []).
        split; [rewrite SAME; auto|]. split; auto. split; auto. split; [constructor|]. apply unigram_place.
      + pose proof (entry_oov _ _ _ I) as EO. fold num. unfold im_model_state, im_prefix_length.
        fold num in EO. rewrite EO. cbn [option_map Z.leb].
         exists num, (wm_im m), Unknown. split; [rewrite SAME; auto|]. split; auto. split; auto.
        split; [constructor; auto|]. simpl. auto.
  Qed.
End Next.
