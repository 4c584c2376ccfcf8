(** The listing of ExtractLMScores is what the specification predicts. *)
From Coq Require Import Field.
From Verif Require Import Base Field LmModel HubModel HubSpec HubProofs HubMix PpmModel NgramModel NgramSpec
  NgramProofs NgramProps WordModel WordSpec WordLex WordIndex WordRange WordState WordNext WordCache LmProofs
  WordScores.
Local Open Scope Z_scope.

(** Predictions before normalization. *)
Inductive offers {F : ofield} (f : list (@pstate F)) (vocab : list (Z * str)) (unigram s : Z) : str -> str -> car F -> Prop :=
| off_char p c v : c <> 32 -> begins vocab (p ++ [c]) = true -> mass f vocab s (p ++ [c]) v ->
    offers f vocab unigram s p [c] v
| off_space p x d e v : p <> [] -> In (x, p) vocab -> symbol_prob f x s v -> symbol_dest f x s d ->
    end_prob f (match d with Some d' => d' | None => unigram end) e ->
    offers f vocab unigram s p [32] (fmul v (fsub f1 e))
| off_word_end p x d e v : p <> [] -> In (x, p) vocab -> symbol_prob f x s v -> symbol_dest f x s d ->
    end_prob f (match d with Some d' => d' | None => unigram end) e -> e <> f0 ->
    offers f vocab unigram s p [] (fmul v e)
| off_end e : end_prob f s e -> e <> f0 -> offers f vocab unigram s [] [] e.

Lemma predicts_offers {F : ofield} (f : list (@pstate F)) vocab u s p total c q :
  predicts f vocab u s p total c q <-> exists v, offers f vocab u s p c v /\ q = fdiv v total.
Proof.
  split.
  - intros H. destruct H; eexists; (split; [|reflexivity]).
    + eapply off_char; eauto.
    + eapply off_space; eauto.
    + eapply off_word_end; eauto.
    + eapply off_end; eauto.
  - intros [v [H ->]]. destruct H.
    + eapply pred_char; eauto.
    + eapply pred_space; eauto.
    + eapply pred_word_end; eauto.
    + eapply pred_end; eauto.
Qed.

Lemma offers_inv {F : ofield} (f : list (@pstate F)) vocab u s p c v : offers f vocab u s p c v ->
  (exists ch, ch <> 32 /\ begins vocab (p ++ [ch]) = true /\ mass f vocab s (p ++ [ch]) v /\ c = [ch]) \/
  (exists x d e v', p <> [] /\ In (x, p) vocab /\ symbol_prob f x s v' /\ symbol_dest f x s d /\
     end_prob f (match d with Some d' => d' | None => u end) e /\ c = [32] /\ v = fmul v' (fsub f1 e)) \/
  (exists x d e v', p <> [] /\ In (x, p) vocab /\ symbol_prob f x s v' /\ symbol_dest f x s d /\
     end_prob f (match d with Some d' => d' | None => u end) e /\ e <> f0 /\ c = [] /\ v = fmul v' e) \/
  (p = [] /\ end_prob f s v /\ v <> f0 /\ c = []).
Proof.
  intros O. destruct O.
  - left. eauto.
  - right. left. repeat eexists; eauto.
  - right. right. left. repeat eexists; eauto.
  - right. right. right. auto.
Qed.

Lemma Permutation_filter {A} (g : A -> bool) l l' : Permutation l l' -> Permutation (filter g l) (filter g l').
Proof.
  induction 1; cbn [filter]; auto.
  - destruct (g x); auto.
  - destruct (g x), (g y); auto. apply perm_swap.
  - eapply perm_trans; eauto.
Qed.
Lemma Forall2_map_self {A C} (P : A -> C -> Prop) (h : A -> C) (l : list A) :
  (forall a, In a l -> P a (h a)) -> Forall2 P l (map h l).
Proof. induction l as [|x t IH]; intros H; simpl; constructor; auto with datatypes. Qed.

Section Predict.
  Context {F : ofield}.
  Add Field FfieldWp : (f_th F).
  Variable m : word F.
  Variable ws : list str.
  Hypothesis B : wbase m ws.
  Hypothesis AO : arcs_ok (wm_ng m).
  Let ng := wm_ng m.
  Let f := ng_fst ng.
  Let num := Z.of_nat (length f).
  Let vocab := wvocab m.
  Let lab := find_label (ng_syms ng).
  Let u := ng_unigram ng.
  Let LD : loaded ng := wb_loaded _ _ B.

  Lemma CANp : canonical f. Proof. exact (proj1 (ld_facts ng LD)). Qed.

  Lemma vocab_map : vocab = map (fun w => (lab w, w)) (map snd vocab).
  Proof.
    rewrite map_map. rewrite <- (map_id vocab) at 1. apply map_ext_in. intros [x w] I. simpl.
    destruct (vocab_valid ng LD _ _ I) as [E _]. unfold lab. rewrite E. reflexivity.
  Qed.
  Lemma filter_vocab p : Permutation (filter (fun '(_, w) => prefixb p w) vocab)
                                     (map (fun w => (lab w, w)) (filter (prefixb p) ws)).
  Proof.
    rewrite vocab_map.
    assert (X : forall l, filter (fun '(_, w) => prefixb p w) (map (fun w => (lab w, w)) l) =
                     map (fun w => (lab w, w)) (filter (prefixb p) l)).
    { induction l as [|w t IH]; simpl; auto. destruct (prefixb p w); simpl; congruence. }
    rewrite X. apply Permutation_map, Permutation_filter, Permutation_sym.
    apply (ix_perm _ _ (wb_indexed _ _ B)).
  Qed.

  Lemma wprob_sym s w : 0 <= s < num -> In w ws -> symbol_prob f (lab w) s (wprob ng s w).
  Proof.
    intros Hs I. destruct (proj2 (has_state_ex f s) Hs) as [st Hst].
    pose proof (word_label m ws B w I) as V. destruct (vocab_valid ng LD _ _ V) as [_ [P _]].
    unfold wprob. eapply (pf_sym f CANp ng eq_refl); eauto; unfold lab in *; fold ng in P; lia.
  Qed.
  Lemma mass_filter s p : 0 <= s < num -> mass f vocab s p (fsum (map (wprob ng s) (filter (prefixb p) ws))).
  Proof.
    intros Hs. set (h := fun e : Z * str => wprob ng s (snd e)).
    exists (map h (filter (fun '(_, w) => prefixb p w) vocab)). split.
    - apply Forall2_map_self. intros [x w] I. apply filter_In in I. destruct I as [I _].
      destruct (vocab_valid ng LD _ _ I) as [E _]. unfold h. simpl. rewrite <- E. apply wprob_sym; auto.
      apply (word_ws m ws B). apply (in_map snd) in I. exact I.
    - rewrite (fsum_perm _ _ (Permutation_map h (filter_vocab p))). rewrite map_map. reflexivity.
  Qed.
  Lemma mass_fun s p v v' : mass f vocab s p v -> mass f vocab s p v' -> v = v'.
  Proof.
    intros [ps [A ->]] [qs [A' ->]]. f_equal. revert qs A'.
    induction A as [|[x w] y l ps H1 H2 IH]; intros qs A'; inversion A' as [|? z ? qs' H3 H4]; subst; auto.
    f_equal; auto. eapply symbol_prob_fun; [exact CANp| |]; eauto.
  Qed.
  Lemma mass_range s p b e : 0 <= s < num -> range ws p b e -> mass f vocab s p (segsum ws (wprob ng s) b e).
  Proof. intros Hs R. unfold segsum. rewrite <- (range_filter _ _ _ _ R). apply mass_filter. auto. Qed.

  Section At.
    Variables (s b e : Z) (p : str) (ends : list Z) (chars : list str).
    Hypothesis Hs : 0 <= s < num.
    Hypothesis R : range ws p b e.
    Let g := nc ws (Z.of_nat (length p)).
    Hypothesis G : grp g b e ends chars.
    Let SRT := ix_sorted _ _ (wb_indexed _ _ B).
    Let NS := wb_spaces _ _ B.

    Lemma conv i l j : b <= i -> i <= l <= j -> j <= e -> g i = g j -> g l = g i.
    Proof. apply (char_convex ws SRT NS p b e R). Qed.

    Lemma sub_range c b' e' : c <> 32 -> b <= b' <= e' -> e' <= e ->
      (forall i, b <= i <= e -> (g i = c <-> b' <= i <= e')) -> range ws (p ++ [c]) b' e'.
    Proof.
      intros Hc H1 H2 H3. pose proof R as [R1 [R2 R3]]. split; [lia|]. split; [lia|].
      intros i Hi. split.
      - intros P. assert (Hb : b <= i <= e) by (apply R3; auto; apply prefixb_snoc in P; tauto).
        apply H3; auto. apply (char_prefix ws p b e R); auto.
      - intros Hb. apply (char_prefix ws p b e R); [lia|auto|]. apply H3; lia.
    Qed.
    Lemma word_first : In p ws <-> g b = 32.
    Proof.
      pose proof R as [R1 [R2 R3]]. split.
      - intros I. apply In_wat in I. destruct I as [i [Hi Wi]].
        assert (Hb : b <= i <= e) by (apply R3; auto; rewrite Wi; apply prefixb_refl).
        assert (i = b) by (apply (complete_first ws SRT p b e R); auto). subst i.
        apply (char_complete ws NS p b e R); [lia|auto].
      - intros E. apply (char_complete ws NS p b e R) in E; [|lia]. rewrite <- E. apply wat_In. lia.
    Qed.

    Lemma group_in c v : In (c, v) (combine chars (gprobs ws (wprob ng s) b ends)) ->
      (exists ch, ch <> 32 /\ c = [ch] /\ begins vocab (p ++ [ch]) = true /\ mass f vocab s (p ++ [ch]) v) \/
      (c = [32] /\ In p ws /\ v = wprob ng s p).
    Proof.
      intros I. pose proof R as [R1 [R2 R3]].
      destruct (grp_mem ws (wprob ng s) g b e ends chars c v G I conv) as [b' [e' [A1 [A2 [A3 [A4 A5]]]]]].
      destruct (Z.eq_dec (g b') 32) as [E|E].
      - right. split; [congruence|].
        assert (W : wat ws b' = p) by (apply (char_complete ws NS p b e R); [lia|auto]).
        assert (b' = b) by (apply (complete_first ws SRT p b e R); [lia|auto]). subst b'.
        assert (W2 : wat ws e' = p) by (apply (char_complete ws NS p b e R); [lia|]; fold g; rewrite <- E; apply A5; lia).
        assert (e' = b) by (apply (complete_first ws SRT p b e R); [lia|auto]). subst e'.
        split; [rewrite <- W; apply wat_In; lia|].
        rewrite A4. unfold segsum. rewrite seg_one by lia. rewrite W. cbn [map]. rewrite fsum_cons, fsum_nil. ring.
      - left. exists (g b'). split; auto. split; auto.
        pose proof (sub_range (g b') b' e' E A1 A2 A5) as SR.
        split; [|rewrite A4; apply mass_range; auto].
        unfold vocab. rewrite <- (begins_ws m ws B). eapply range_begins; eauto.
    Qed.
    Lemma group_char ch v : ch <> 32 -> begins vocab (p ++ [ch]) = true -> mass f vocab s (p ++ [ch]) v ->
      In ([ch], v) (combine chars (gprobs ws (wprob ng s) b ends)).
    Proof.
      intros Hc BG M. pose proof R as [R1 [R2 R3]].
      unfold vocab in BG. rewrite <- (begins_ws m ws B) in BG. apply existsb_exists in BG. destruct BG as [w [I P]].
      apply In_wat in I. destruct I as [i [Hi Wi]]. subst w.
      assert (Hb : b <= i <= e) by (apply R3; auto; apply prefixb_snoc in P; tauto).
      assert (Ei : g i = ch) by (apply (char_prefix ws p b e R); auto).
      destruct (grp_cover ws (wprob ng s) g b e ends chars i G Hb) as [v' I]. rewrite Ei in I.
      pose proof (group_in _ _ I) as [[ch' [A1 [A2 [A3 A4]]]]|[A1 _]].
      - injection A2 as <-. rewrite (mass_fun _ _ _ _ M A4). auto.
      - injection A1. lia.
    Qed.
    Lemma group_word : In p ws -> In ([32], wprob ng s p) (combine chars (gprobs ws (wprob ng s) b ends)).
    Proof.
      intros I. pose proof R as [R1 [R2 R3]]. apply word_first in I.
      destruct (grp_cover ws (wprob ng s) g b e ends chars b G ltac:(lia)) as [v' J]. rewrite I in J.
      pose proof (group_in _ _ J) as [[ch' [A1 [A2 _]]]|[_ [_ ->]]]; auto. injection A2. congruence.
    Qed.
    Lemma chars_hd : hd [] chars = [g b].
    Proof. inversion G; reflexivity. Qed.

    Lemma word_events : In p ws -> p <> [] /\ In (lab p, p) vocab /\ symbol_prob f (lab p) s (wprob ng s p) /\
      (exists d, symbol_dest f (lab p) s d /\ after ng s p = match d with Some d' => d' | None => u end /\
                 end_prob f (match d with Some d' => d' | None => u end) (pf ng (after ng s p) 0)).
    Proof.
      intros I. split; [apply (word_nonempty m ws B); auto|]. split; [apply (word_label m ws B); auto|].
      split; [apply wprob_sym; auto|].
      destruct (after_ok ng ws LD m s p B eq_refl Hs I) as [_ [A2 [d [A3 A4]]]]. exists d. split; auto. split; auto.
      fold u in A4. rewrite <- A4. destruct (proj2 (has_state_ex f _) A2) as [st' Hst'].
      eapply (pf_end f CANp ng eq_refl); eauto.
    Qed.
    Lemma dest_events x d e' v : In (x, p) vocab -> symbol_prob f x s v -> symbol_dest f x s d ->
      end_prob f (match d with Some d' => d' | None => u end) e' ->
      In p ws /\ v = wprob ng s p /\ e' = pf ng (after ng s p) 0.
    Proof.
      intros I P D E. assert (Ip : In p ws) by (apply (word_ws m ws B); apply (in_map snd) in I; exact I).
      split; auto. destruct (vocab_valid ng LD _ _ I) as [EX _].
      destruct (word_events Ip) as [_ [_ [P' [d' [D' [A E']]]]]]. unfold lab in *. rewrite EX in *.
      split; [eapply symbol_prob_fun; [exact CANp| |]; eauto|].
      rewrite <- (symbol_dest_fun f CANp _ _ _ _ D D') in E'.
      eapply end_prob_fun; [exact CANp| |]; eauto.
    Qed.
    Lemma state_end : end_prob f s (pf ng s 0).
    Proof. destruct (proj2 (has_state_ex f s) Hs) as [st Hst]. eapply (pf_end f CANp ng eq_refl); eauto. Qed.

    Let ps := fst (listing ng ws s p b ends chars).
    Let syms := snd (listing ng ws s p b ends chars).

    Theorem listing_ok :
      length syms = length ps /\ ps <> [] /\ NoDup syms /\ (forall x, In x ps -> fle f0 x = true) /\
      (forall c v, In (c, v) (combine syms ps) <-> offers f vocab u s p c v) /\
      total_mass f vocab s p (fsum ps).
    Proof.
      set (gp := gprobs ws (wprob ng s) b ends).
      assert (T : tables ng ws m) by (constructor; [reflexivity|apply (wb_indexed _ _ B)]).
      pose proof R as [R1 [R2 R3]].
      assert (LEN : length chars = length gp).
      { unfold gp. rewrite gprobs_length. apply (grp_length (wprob ng s) g b e ends chars G). }
      assert (SUM : fsum gp = segsum ws (wprob ng s) b e) by (apply (gprobs_sum ws (wprob ng s) g b e ends chars); auto; lia).
      assert (MS : mass f vocab s p (fsum gp)) by (rewrite SUM; apply mass_range; auto).
      assert (ND : NoDup chars) by (apply (grp_nodup (wprob ng s) g b e ends chars G conv)).
      assert (NN : forall x, In x gp -> fle f0 x = true).
      { assert (X : forall es b0 x, In x (gprobs ws (wprob ng s) b0 es) -> fle f0 x = true).
        { induction es as [|x0 t IH]; intros b0 x I; [destruct I|]. destruct I as [<-|I].
          - eapply segsum_nonneg; eauto.
          - eapply IH; eauto. }
        apply X. }
      assert (NE : exists c0 ct q0 qt, chars = c0 :: ct /\ gp = q0 :: qt).
      { unfold gp. inversion G; subst; cbn [gprobs]; do 4 eexists; split; reflexivity. }
      destruct NE as [c0 [ct [q0 [qt [EC EQ]]]]].
      pose proof chars_hd as CH. rewrite EC in CH. cbn [hd] in CH.
      assert (NOEMPTY : ~ In [] chars).
      { intros I. destruct (grp_chars (wprob ng s) g b e ends chars [] G I) as [i [_ X]]. discriminate. }
      unfold ps, syms, listing. fold gp. rewrite EC, EQ. cbn [hd tl]. rewrite CH, str_eqb_single.
      destruct (Z.eqb_spec (g b) 32) as [E32|N32].
      - (* the prefix is a word *)
        assert (Ip : In p ws) by (apply word_first; auto).
        destruct (word_events Ip) as [W1 [W2 [W3 [d [W4 [W5 W6]]]]]].
        assert (TM : total_mass f vocab s p (fsum gp)).
        { exists (fsum gp). split; auto. destruct p; [congruence|auto]. }
        assert (Q0 : q0 = wprob ng s p).
        { assert (I : In ([32], q0) (combine chars gp)) by (rewrite EC, EQ, CH, E32; left; auto).
          apply group_in in I. destruct I as [[ch [A1 [A2 _]]]|[_ [_ A]]]; auto. injection A2. congruence. }
        assert (TAIL : forall c v, In (c, v) (combine ct qt) -> In (c, v) (combine chars gp) /\ c <> [32]).
        { intros c v I. rewrite EC, EQ. split; [right; auto|]. intros ->.
          rewrite EC in ND. inversion ND as [|? ? N1 N2]. apply N1. rewrite CH, E32. apply in_combine_l in I. auto. }
        destruct (feqb (pf ng (after ng s p) 0) f0) eqn:EF; cbn [fst snd].
        + apply feqb_eq in EF. rewrite <- CH, <- EC, <- EQ. split; auto. split; [rewrite EQ; discriminate|].
          split; auto. split; auto. split; auto. intros c v. split.
          * intros I. apply group_in in I. destruct I as [[ch [A1 [A2 [A3 A4]]]]|[-> [_ ->]]].
            -- subst c. apply off_char; auto.
            -- replace (wprob ng s p) with (fmul (wprob ng s p) (fsub f1 (pf ng (after ng s p) 0))) by (rewrite EF; ring).
               eapply off_space; eauto.
          * intros O. destruct (offers_inv _ _ _ _ _ _ _ O) as [[ch [H1 [H2 [H3 ->]]]]|[[x [d' [e' [v' [H1 [H2 [H3 [H4 [H5 [-> ->]]]]]]]]]]|[[x [d' [e' [v' [H1 [H2 [H3 [H4 [H5 [H6 [-> ->]]]]]]]]]]]|[H0 [H1 [H2 ->]]]]]].
            -- apply group_char; auto.
            -- destruct (dest_events x d' e' v' H2 H3 H4 H5) as [_ [-> ->]]. rewrite EF.
               replace (fmul (wprob ng s p) (fsub f1 f0)) with (wprob ng s p) by ring. apply group_word. auto.
            -- destruct (dest_events x d' e' v' H2 H3 H4 H5) as [_ [_ ->]]. contradiction.
            -- congruence.
        + assert (EF' : pf ng (after ng s p) 0 <> f0) by (intros X; apply feqb_eq in X; congruence).
          set (e1 := pf ng (after ng s p) 0) in *.
          assert (LE1 : fle e1 f1 = true).
          { unfold e1. apply (end_le_1 ng ws LD AO). apply (after_ok ng ws LD m s p B eq_refl Hs Ip). }
          assert (NE1 : fle f0 e1 = true) by (eapply end_prob_nonneg; [exact CANp|exact W6]).
          assert (NQ : fle f0 q0 = true) by (apply NN; rewrite EQ; left; auto).
          split; [cbn [length]; rewrite EC, EQ in LEN; simpl in LEN; lia|]. split; [discriminate|].
          split; [|split; [|split]].
          * rewrite EC in ND, NOEMPTY. inversion ND as [|? ? N1 N2]; subst. constructor.
            -- intros [X|X]; [discriminate|]. apply N1. rewrite E32. auto.
            -- constructor; auto. intros X. apply NOEMPTY. right. auto.
          * intros x [<-|[<-|I]].
            -- apply fmul_nonneg; auto. apply (proj1 (fle_sub e1 f1)). auto.
            -- apply fmul_nonneg; auto.
            -- apply NN. rewrite EQ. right. auto.
          * intros c v. cbn [combine]. split.
            -- intros [X|[X|I]].
               ++ injection X as <- <-. rewrite Q0. eapply off_space; eauto.
               ++ injection X as <- <-. rewrite Q0. eapply off_word_end; eauto.
               ++ destruct (TAIL c v I) as [I2 N]. apply group_in in I2.
                  destruct I2 as [[ch [A1 [A2 [A3 A4]]]]|[X _]]; [|contradiction]. subst c. apply off_char; auto.
            -- intros O. destruct (offers_inv _ _ _ _ _ _ _ O) as [[ch [H1 [H2 [H3 ->]]]]|[[x [d' [e' [v' [H1 [H2 [H3 [H4 [H5 [-> ->]]]]]]]]]]|[[x [d' [e' [v' [H1 [H2 [H3 [H4 [H5 [H6 [-> ->]]]]]]]]]]]|[H0 [H1 [H2 ->]]]]]].
               ++ right. right. pose proof (group_char ch v H1 H2 H3) as I. fold gp in I. rewrite EC, EQ in I.
                  destruct I as [X|I]; auto. exfalso. injection X as X _. rewrite CH, E32 in X. injection X. lia.
               ++ left. destruct (dest_events x d' e' v' H2 H3 H4 H5) as [_ [-> ->]]. rewrite Q0. reflexivity.
               ++ right. left. destruct (dest_events x d' e' v' H2 H3 H4 H5) as [_ [-> ->]]. rewrite Q0. reflexivity.
               ++ congruence.
          * rewrite EQ in TM. replace (fsum (fmul q0 (fsub f1 e1) :: fmul q0 e1 :: qt)) with (fsum (q0 :: qt)); auto.
            rewrite !fsum_cons. ring.
      - assert (NIp : ~ In p ws) by (rewrite word_first; auto).
        assert (NOW : forall x, In (x, p) vocab -> False).
        { intros x I. apply NIp. apply (word_ws m ws B). apply (in_map snd) in I. exact I. }
        assert (BASE : forall c v, In (c, v) (combine chars gp) <->
                   (exists ch, ch <> 32 /\ c = [ch] /\ begins vocab (p ++ [ch]) = true /\ mass f vocab s (p ++ [ch]) v)).
        { intros c v. split.
          - intros I. apply group_in in I. destruct I as [I|[_ [I _]]]; [auto|contradiction].
          - intros [ch [A1 [-> [A3 A4]]]]. apply group_char; auto. }
        rewrite <- CH, <- EC, <- EQ.
        destruct (list_eq_dec Z.eq_dec p []) as [Ep|Np].
        + assert (LST : (match p with
                  | [] => if feqb (pf ng s 0) f0 then (gp, chars) else (pf ng s 0 :: gp, [] :: chars)
                  | _ :: _ => (gp, chars) end) =
                  if feqb (pf ng s 0) f0 then (gp, chars) else (pf ng s 0 :: gp, [] :: chars)).
          { rewrite Ep. reflexivity. }
          rewrite LST. pose proof state_end as SE.
          assert (NE0 : fle f0 (pf ng s 0) = true) by (eapply end_prob_nonneg; [exact CANp|exact SE]).
          assert (TM : total_mass f vocab s p (fadd (pf ng s 0) (fsum gp))).
          { exists (fsum gp). split; auto. rewrite Ep. exists (pf ng s 0). auto. }
          destruct (feqb (pf ng s 0) f0) eqn:EF; cbn [fst snd].
          * apply feqb_eq in EF. split; auto. split; [rewrite EQ; discriminate|]. split; auto. split; auto. split.
            -- intros c v. rewrite BASE. split.
               ++ intros [ch [A1 [-> [A3 A4]]]]. apply off_char; auto.
               ++ intros O. destruct (offers_inv _ _ _ _ _ _ _ O) as [[ch [H1 [H2 [H3 ->]]]]|[[x [d' [e' [v' [H1 [H2 [H3 [H4 [H5 [-> ->]]]]]]]]]]|[[x [d' [e' [v' [H1 [H2 [H3 [H4 [H5 [H6 [-> ->]]]]]]]]]]]|[H0 [H1 [H2 ->]]]]]].
                  ** exists ch. auto.
                  ** exfalso. eauto.
                  ** exfalso. eauto.
                  ** exfalso. apply H2. rewrite <- EF. eapply end_prob_fun; [exact CANp| |]; eauto.
            -- rewrite EF in TM. replace (fsum gp) with (fadd f0 (fsum gp)) by ring. auto.
          * assert (EF' : pf ng s 0 <> f0) by (intros X; apply feqb_eq in X; congruence).
            split; [cbn [length]; lia|]. split; [discriminate|]. split; [constructor; auto|]. split; [|split; [|exact TM]].
            -- intros x [<-|I]; auto.
            -- intros c v. cbn [combine]. split.
               ++ intros [X|I].
                  ** injection X as <- <-. rewrite Ep. apply off_end; auto.
                  ** apply BASE in I. destruct I as [ch [A1 [-> [A3 A4]]]]. apply off_char; auto.
               ++ intros O. destruct (offers_inv _ _ _ _ _ _ _ O) as [[ch [H1 [H2 [H3 ->]]]]|[[x [d' [e' [v' [H1 [H2 [H3 [H4 [H5 [-> ->]]]]]]]]]]|[[x [d' [e' [v' [H1 [H2 [H3 [H4 [H5 [H6 [-> ->]]]]]]]]]]]|[H0 [H1 [H2 ->]]]]]].
                  ** right. apply BASE. exists ch. auto.
                  ** exfalso. eauto.
                  ** exfalso. eauto.
                  ** left. f_equal. eapply end_prob_fun; [exact CANp| |]; eauto.
        + assert (LST : (match p with
                  | [] => if feqb (pf ng s 0) f0 then (gp, chars) else (pf ng s 0 :: gp, [] :: chars)
                  | _ :: _ => (gp, chars) end) = (gp, chars)).
          { destruct p; [congruence|reflexivity]. }
          rewrite LST. cbn [fst snd].
          split; auto. split; [rewrite EQ; discriminate|]. split; auto. split; auto. split.
          * intros c v. rewrite BASE. split.
            -- intros [ch [A1 [-> [A3 A4]]]]. apply off_char; auto.
            -- intros O. destruct (offers_inv _ _ _ _ _ _ _ O) as [[ch [H1 [H2 [H3 ->]]]]|[[x [d' [e' [v' [H1 [H2 [H3 [H4 [H5 [-> ->]]]]]]]]]]|[[x [d' [e' [v' [H1 [H2 [H3 [H4 [H5 [H6 [-> ->]]]]]]]]]]]|[H0 [H1 [H2 ->]]]]]].
               ++ exists ch. auto.
               ++ exfalso. eauto.
               ++ exfalso. eauto.
               ++ congruence.
          * exists (fsum gp). split; auto. destruct p; [congruence|auto].
    Qed.
  End At.
End Predict.
