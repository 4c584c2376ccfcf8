(** Properties C34-C38 and C53: the word n-gram model.

    A session is a model read from storage together with the states it has handed out so far, each
    with the place (context and letters typed, WordSpec.v) it should stand for.  Calls may be made in
    any order on any state handed out before. *)
From Coq Require Import Field.
From Verif Require Import Base Field LmModel HubModel HubSpec HubProofs HubMix PpmModel NgramModel NgramSpec
  NgramProofs NgramProps WordModel WordSpec WordLex WordIndex WordRange WordState WordNext WordCache LmProofs
  WordScores WordPredict WordInit.
Local Open Scope Z_scope.

Inductive session {F : ofield} (accept : list (@pstate F) -> Z -> bool) (hi opt : Z) (sg : storage F)
  : word F -> list (Z * place) -> Prop :=
| session_read m : checks_model accept -> 0 <= hi -> w_read accept hi opt sg = Ok m -> word_file_ok m ->
    session accept hi opt sg m [(ng_start (wm_ng m), Typing (ng_start (wm_ng m)) [])]
| session_next m l s pl c s' m' pl' : session accept hi opt sg m l -> In (s, pl) l -> 0 <= c ->
    w_next_state m s c = Ok (s', m') -> types (w_fst m) (wvocab m) (ng_unigram (wm_ng m)) pl c pl' ->
    session accept hi opt sg m' ((s', pl') :: l)
| session_scores m l s pl r m' : session accept hi opt sg m l -> In (s, pl) l ->
    w_extract m s = Ok (r, m') -> session accept hi opt sg m' l
| session_score m l s pl c p m' : session accept hi opt sg m l -> In (s, pl) l ->
    w_score m s c = Ok (p, m') -> session accept hi opt sg m' l.

(** ** Lemmas *)
Section Lemmas.
  Context {F : ofield}.
  Add Field FfieldWq : (f_th F).

  Lemma types_fun (m : word F) ws pl c r r' : wbase m ws ->
    types (w_fst m) (wvocab m) (ng_unigram (wm_ng m)) pl c r ->
    types (w_fst m) (wvocab m) (ng_unigram (wm_ng m)) pl c r' -> r = r'.
  Proof.
    intros B. pose proof (proj1 (ld_facts _ (wb_loaded _ _ B))) as CAN.
    assert (WD : forall x p, In (x, p) (wvocab m) -> is_word (wvocab m) p).
    { intros x p I. apply (in_map snd) in I. exact I. }
    assert (UX : forall x y p, In (x, p) (wvocab m) -> In (y, p) (wvocab m) -> x = y).
    { intros x y p I J. destruct (vocab_valid _ (wb_loaded _ _ B) _ _ I) as [<- _].
      destruct (vocab_valid _ (wb_loaded _ _ B) _ _ J) as [<- _]. reflexivity. }
    intros H H'. destruct H as [s c H1|s c H1|s p c H1 H2 H3|s p c H1 H2 H3|s p x d H1 H2 H3|s p H1 H2|c H1|];
      inversion H' as [? ? K1|? ? K1|? ? ? K1 K2 K3|? ? ? K1 K2 K3|? ? y d' K1 K2 K3|? ? K1 K2|? K1|]; subst;
      try congruence; try contradiction; try (exfalso; eauto; fail).
    rewrite (UX _ _ _ K2 H2) in K3. rewrite (symbol_dest_fun _ CAN _ _ _ _ H3 K3). reflexivity.
  Qed.

  Lemma oov_extract (m : word F) ws : wbase m ws -> w_extract m (w_num m) = Ok (Some (LmScores (Val f0) []), m).
  Proof.
    intros B. unfold w_extract. assert (P : 0 <= w_num m) by (unfold w_num; lia).
    unfold check_state. destruct (Z.eqb_spec (w_num m) (-1)); [lia|].
    unfold next_char_ends. rewrite Z.ltb_irrefl. rewrite (entry_oov _ _ _ (wb_im _ _ B)).
    reflexivity.
  Qed.

  (** What ExtractLMScores returns is a function of the place. *)
  Lemma extract_place (m : word F) ws s s0 p : winv m ws -> place_of m ws s (Typing s0 p) ->
    exists ps syms m', w_extract m s = Ok (Some (LmScores (Val f1) (combine syms (map (fun q => num_div q (fsum ps)) ps))), m') /\
      winv m' ws /\ core m m' /\
      length syms = length ps /\ NoDup syms /\ (forall x, In x ps -> fle f0 x = true) /\
      (forall c v, In (c, v) (combine syms ps) <-> offers (w_fst m) (wvocab m) (ng_unigram (wm_ng m)) s0 p c v) /\
      total_mass (w_fst m) (wvocab m) s0 p (fsum ps) /\
      (exists b e ends chars, range ws p b e /\ grp (nc ws (Z.of_nat (length p))) b e ends chars /\
         (ps, syms) = listing (wm_ng m) ws s0 p b ends chars).
  Proof.
    intros W P. pose proof (wi_base _ _ W) as B. pose proof (wi_arcs _ _ W) as AO. pose proof (wi_cache _ _ W) as C.
    destruct (extract_raw (wm_ng m) ws (wb_loaded _ _ B) AO m s s0 p B eq_refl C P)
      as [b [e [ends [chars [m' [R [G [Hs [C' [CO E]]]]]]]]]].
    destruct (listing_ok m ws B AO s0 b e p ends chars Hs R G) as [L1 [L2 [L3 [L4 [L5 L6]]]]].
    destruct (listing (wm_ng m) ws s0 p b ends chars) as [ps syms] eqn:EL. cbn [fst snd] in *.
    exists ps, syms, m'. split.
    { rewrite E. unfold softmax_renormalize. destruct ps as [|q qs]; [congruence|]. cbn [bind].
      rewrite fold_left_fadd. reflexivity. }
    split; [eapply winv_core; eauto|]. split; auto. split; auto. split; auto. split; auto. split; auto. split; auto.
    exists b, e, ends, chars. auto.
  Qed.
  Lemma extract_total (m : word F) ws s pl : winv m ws -> place_of m ws s pl ->
    exists r m', w_extract m s = Ok (r, m') /\ winv m' ws /\ core m m'.
  Proof.
    intros W P. destruct pl as [s0 p|].
    - destruct (extract_place m ws s s0 p W P) as [ps [syms [m' [E [W' [CO _]]]]]]. eauto.
    - simpl in P. subst s. rewrite (oov_extract m ws (wi_base _ _ W)). do 2 eexists. split; [reflexivity|].
      split; auto. apply core_refl.
  Qed.

  Lemma session_inv accept hi opt sg (m : word F) l : session accept hi opt sg m l ->
    exists ws, winv m ws /\ StronglySorted str_lt ws /\ Permutation ws (map snd (wvocab m)) /\
      (forall s pl, In (s, pl) l -> place_of m ws s pl) /\
      wm_max_cache m = (if hi <? opt then opt else 2000) /\ ng_read accept sg = Ok (wm_ng m).
  Proof.
    induction 1 as [m CH HI R OK|m l s pl c s' m' pl' SS IH I HC N T|m l s pl r m' SS IH I E|m l s pl c p m' SS IH I E].
    - destruct (read_winv accept hi opt sg m CH HI R OK) as [ws [W [SR [PM [PL MC]]]]].
      exists ws. split; auto. split; auto. split; auto. split; [|split; auto].
      + intros s pl [X|[]]. injection X as <- <-. auto.
      + destruct (read_parts _ _ _ _ _ R) as [ng [m0 [E1 [E2 E3]]]]. rewrite E1. f_equal.
        apply ensure_core in E3. destruct (core_fields _ _ E3) as [X _]. cbn [wm_ng] in X.
        rewrite X. symmetry. apply establish_ng. auto.
    - destruct IH as [ws [W [SR [PM [PL [MC NG]]]]]]. pose proof (wi_base _ _ W) as B.
      destruct (next_ok m ws B s pl c (PL _ _ I) ltac:(lia)) as [s2 [im' [pl2 [N2 [IO [EX [T2 P2]]]]]]].
      rewrite N in N2. injection N2 as -> ->.
      rewrite (types_fun m ws pl c pl' pl2 B T T2).
      exists ws. split; [apply winv_im; auto|]. split; auto. split; auto. split; [|auto].
      intros t q [X|J].
      + injection X as <- <-. exact P2.
      + apply (stands_im m ws im' t q EX). apply PL. auto.
    - destruct IH as [ws [W [SR [PM [PL [MC NG]]]]]].
      destruct (extract_total m ws s pl W (PL _ _ I)) as [r2 [m2 [E2 [W2 CO]]]]. rewrite E in E2. injection E2 as <- <-.
      destruct (core_fields _ _ CO) as [F1 [_ [_ [_ [_ [_ [_ [F8 _]]]]]]]].
      exists ws. split; auto. split; auto. unfold wvocab. rewrite F1, F8. split; auto. split; [|auto].
      intros t q J. eapply place_core; eauto.
    - destruct IH as [ws [W [SR [PM [PL [MC NG]]]]]].
      destruct (extract_total m ws s pl W (PL _ _ I)) as [r2 [m2 [E2 [W2 CO]]]].
      unfold w_score in E. rewrite E2 in E. cbn [bind] in E. injection E as _ <-.
      destruct (core_fields _ _ CO) as [F1 [_ [_ [_ [_ [_ [_ [F8 _]]]]]]]].
      exists ws. split; auto. split; auto. unfold wvocab. rewrite F1, F8. split; auto. split; [|auto].
      intros t q J. eapply place_core; eauto.
  Qed.

  Lemma sorted_unique (a : list str) : forall b, StronglySorted str_lt a -> StronglySorted str_lt b -> Permutation a b -> a = b.
  Proof.
    induction a as [|x a IH]; intros b SA SB P.
    - apply Permutation_nil in P. auto.
    - destruct b as [|y b]; [apply Permutation_sym, Permutation_nil in P; discriminate|].
      inversion SA as [|? ? SA1 SA2]; inversion SB as [|? ? SB1 SB2]; subst.
      assert (x = y).
      { assert (IX : In x (y :: b)) by (eapply Permutation_in; [exact P|left; auto]).
        assert (IY : In y (x :: a)) by (eapply Permutation_in; [apply Permutation_sym; exact P|left; auto]).
        destruct IX as [->|IX]; auto. destruct IY as [->|IY]; auto. exfalso.
        rewrite Forall_forall in SA2, SB2. apply (str_lt_irrefl x).
        eapply str_lt_trans; [apply SA2; eauto|apply SB2; auto]. }
      subst y. f_equal. apply IH; auto. eapply Permutation_cons_inv; eauto.
  Qed.
End Lemmas.

(** * C34: ranges of words *)
(** In every state for a place inside a word, the stored range of positions holds exactly the words
    beginning with the letters typed. *)
Theorem C34_prefix_ranges : forall (F : ofield) accept hi opt sg (m : word F) l s s0 p,
  session accept hi opt sg m l -> In (s, Typing s0 p) l ->
  exists b e, im_symbol_begin (wm_im m) s = Some b /\ im_symbol_end (wm_im m) s = Some e /\
    im_model_state (wm_im m) s = Some s0 /\ im_prefix_length (wm_im m) s = Some (Z.of_nat (length p)) /\
    forall w, is_word (wvocab m) w ->
      (prefixb p w = true <-> exists i, b <= i <= e /\ word_at m i = Ok w).
Proof.
  intros F accept hi opt sg m l s s0 p SS I.
  destruct (session_inv _ _ _ _ _ _ SS) as [ws [W [SR [PM [PL _]]]]]. pose proof (wi_base _ _ W) as B.
  pose proof (PL _ _ I) as P.
  destruct (char_ends_place (wm_ng m) ws (wb_loaded _ _ B) m s s0 p B eq_refl P)
    as [b [e [ends [chars [_ [R [_ [E _]]]]]]]].
  exists b, e. unfold im_symbol_begin, im_symbol_end, im_model_state, im_prefix_length. rewrite E. cbn [option_map].
  split; auto. split; auto. split; auto. split; auto.
  intros w IW. apply (word_ws m ws B) in IW. apply In_wat in IW. destruct IW as [i [Hi <-]].
  pose proof R as [R1 [R2 R3]]. rewrite R3 by auto. split.
  - intros H. exists i. split; auto. apply (word_at_ok m ws (wb_loaded _ _ B) (wb_indexed _ _ B)). auto.
  - intros [j [H E2]]. rewrite (word_at_ok m ws (wb_loaded _ _ B) (wb_indexed _ _ B)) in E2 by lia. injection E2 as E2.
    apply (wat_inj ws j i SR) in E2; lia.
Qed.
Print Assumptions C34_prefix_ranges.

(** * C35: states and places *)
(** States handed out over any history are in one-to-one correspondence with the places they stand
    for: the same place always gives the same state, different places different states, and a state
    handed out long ago still stands for its place. *)
Theorem C35_states_are_places : forall (F : ofield) accept hi opt sg (m : word F) l s pl s' pl',
  session accept hi opt sg m l -> In (s, pl) l -> In (s', pl') l -> (s = s' <-> pl = pl').
Proof.
  intros F accept hi opt sg m l s pl s' pl' SS I I'.
  destruct (session_inv _ _ _ _ _ _ SS) as [ws [W [SR [PM [PL _]]]]].
  pose proof (PL _ _ I) as P. pose proof (PL _ _ I') as P'. pose proof (wb_im _ _ (wi_base _ _ W)) as IO.
  split.
  - intros <-. eapply stands_fun; eauto.
  - intros <-. eapply stands_inj; eauto.
Qed.
Print Assumptions C35_states_are_places.

(** NextState on a state handed out before always succeeds and follows the typing relation. *)
Theorem C35_next_state : forall (F : ofield) accept hi opt sg (m : word F) l s pl c,
  session accept hi opt sg m l -> In (s, pl) l -> 0 <= c ->
  exists s' m' pl', w_next_state m s c = Ok (s', m') /\
    types (w_fst m) (wvocab m) (ng_unigram (wm_ng m)) pl c pl' /\
    session accept hi opt sg m' ((s', pl') :: l).
Proof.
  intros F accept hi opt sg m l s pl c SS I HC.
  destruct (session_inv _ _ _ _ _ _ SS) as [ws [W [SR [PM [PL _]]]]]. pose proof (wi_base _ _ W) as B.
  destruct (next_ok m ws B s pl c (PL _ _ I) ltac:(lia)) as [s2 [im' [pl2 [N2 [IO [EX [T2 P2]]]]]]].
  exists s2, (set_im m im'), pl2. split; auto. split; auto. eapply session_next; eauto.
Qed.
Print Assumptions C35_next_state.

Theorem C35_typing_is_determined : forall (F : ofield) accept hi opt sg (m : word F) l pl c r r',
  session accept hi opt sg m l ->
  types (w_fst m) (wvocab m) (ng_unigram (wm_ng m)) pl c r ->
  types (w_fst m) (wvocab m) (ng_unigram (wm_ng m)) pl c r' -> r = r'.
Proof.
  intros F accept hi opt sg m l pl c r r' SS. destruct (session_inv _ _ _ _ _ _ SS) as [ws [W _]].
  apply (types_fun m ws). apply (wi_base _ _ W).
Qed.
Print Assumptions C35_typing_is_determined.

(** * C36: predictions *)
(** If the words that can still follow have any probability, the scores are exactly the predictions
    of the specification, one entry each, and sum to one. *)
Theorem C36_predictions : forall (F : ofield) accept hi opt sg (m : word F) l s s0 p total,
  session accept hi opt sg m l -> In (s, Typing s0 p) l ->
  total_mass (w_fst m) (wvocab m) s0 p total -> total <> f0 ->
  exists entries m',
    w_extract m s = Ok (Some (LmScores (Val f1) (map (fun '(c, q) => (c, Val q)) entries)), m') /\
    NoDup (map fst entries) /\
    (forall c q, In (c, q) entries <-> predicts (w_fst m) (wvocab m) (ng_unigram (wm_ng m)) s0 p total c q) /\
    fsum (map snd entries) = f1 /\ (forall c q, In (c, q) entries -> fle f0 q = true).
Proof.
  intros F accept hi opt sg m l s s0 p total SS I TM NZ.
  destruct (session_inv _ _ _ _ _ _ SS) as [ws [W [SR [PM [PL _]]]]]. pose proof (wi_base _ _ W) as B.
  destruct (extract_place m ws s s0 p W (PL _ _ I)) as [ps [syms [m' [E [_ [_ [L1 [L3 [L4 [L5 [L6 _]]]]]]]]]]].
  assert (ET : total = fsum ps).
  { destruct TM as [v [M1 M2]], L6 as [v' [M1' M2']].
    assert (v = v') by (eapply (mass_fun m ws B); eauto). subst v'.
    destruct p as [|c p].
    - destruct M2 as [e1 [A1 A2]], M2' as [e2 [A1' A2']].
      rewrite A2, A2'. f_equal. eapply end_prob_fun; [exact (proj1 (ld_facts _ (wb_loaded _ _ B)))|exact A1|exact A1'].
    - congruence. }
  exists (combine syms (map (fun q => fdiv q total) ps)), m'. split; [|split; [|split; [|split]]].
  - rewrite E. do 4 f_equal. rewrite ET in *. clear - NZ. revert ps NZ. intros ps.
    generalize (fsum ps) as t. intros t NZ. revert syms. induction ps as [|x ps IH]; intros [|y syms]; cbn [combine map]; auto.
    f_equal; auto. f_equal. unfold num_div. destruct (feqb t f0) eqn:Q; auto. apply feqb_eq in Q. contradiction.
  - assert (X : forall (A B : Type) (a : list A) (b : list B), length a = length b -> map fst (combine a b) = a).
    { clear. induction a as [|x a IH]; intros [|y b] H; simpl in *; try discriminate; auto. f_equal. auto. }
    rewrite X; auto. rewrite map_length. auto.
  - intros c q. rewrite predicts_offers.
    assert (X : In (c, q) (combine syms (map (fun q => fdiv q total) ps)) <-> exists v, In (c, v) (combine syms ps) /\ q = fdiv v total).
    { clear. revert ps. induction syms as [|y syms IH]; intros [|x ps]; cbn [combine map].
      - split; [intros []|intros [v [[] _]]].
      - split; [intros []|intros [v [[] _]]].
      - split; [intros []|intros [v [[] _]]].
      - cbn [In]. rewrite IH. split.
        + intros [H|[v [H1 H2]]]; [injection H as <- <-; exists x; auto|exists v; auto].
        + intros [v [[H|H] H2]]; [injection H as <- <-; left; congruence|right; exists v; auto]. }
    rewrite X. split; intros [v [H1 H2]]; exists v; split; auto; apply L5; auto.
  - assert (X : forall (A B : Type) (a : list A) (b : list B), length a = length b -> map snd (combine a b) = b).
    { clear. induction a as [|x a IH]; intros [|y b] H; simpl in *; try discriminate; auto. f_equal. auto. }
    rewrite X by (rewrite map_length; auto).
    rewrite (fsum_map_div _ (fun x => x)) by auto. rewrite map_id, ET. apply fdiv_self. congruence.
  - intros c q H. apply in_combine_r, in_map_iff in H. destruct H as [v [<- H]]. apply fdiv_nonneg; auto.
    assert (NN : fle f0 total = true) by (rewrite ET; apply fsum_nonneg; auto).
    destruct (fle_lt_eq _ _ NN) as [X|X]; auto.
Qed.
Print Assumptions C36_predictions.

(** Every place has exactly one total. *)
Theorem C36_total_is_determined : forall (F : ofield) accept hi opt sg (m : word F) l s s0 p,
  session accept hi opt sg m l -> In (s, Typing s0 p) l ->
  exists total, forall t, total_mass (w_fst m) (wvocab m) s0 p t <-> t = total.
Proof.
  intros F accept hi opt sg m l s s0 p SS I.
  destruct (session_inv _ _ _ _ _ _ SS) as [ws [W [SR [PM [PL _]]]]]. pose proof (wi_base _ _ W) as B.
  destruct (extract_place m ws s s0 p W (PL _ _ I)) as [ps [syms [m' [E [_ [_ [L1 [L3 [L4 [L5 [L6 _]]]]]]]]]]].
  exists (fsum ps). intros t. split; [|intros ->; auto].
  intros TM. destruct TM as [v [M1 M2]], L6 as [v' [M1' M2']].
  assert (v = v') by (eapply (mass_fun m ws B); eauto). subst v'. destruct p as [|c p].
  - destruct M2 as [e1 [A1 A2]], M2' as [e2 [A1' A2']]. rewrite A2, A2'. f_equal.
    eapply end_prob_fun; [exact (proj1 (ld_facts _ (wb_loaded _ _ B)))|exact A1|exact A1'].
  - congruence.
Qed.
Print Assumptions C36_total_is_determined.

(** SymLMScore of a character is its entry, 0 if there is none; the character 0 asks for the end of
    the text (the empty symbol), in a vocabulary without that character. *)
Theorem C36_symbol_score : forall (F : ofield) accept hi opt sg (m : word F) l s s0 p total c sy,
  session accept hi opt sg m l -> In (s, Typing s0 p) l ->
  total_mass (w_fst m) (wvocab m) s0 p total -> total <> f0 ->
  0 < c /\ sy = [c] \/ c = 0 /\ sy = [] /\ (forall x w, In (x, w) (wvocab m) -> ~ In 0 w) ->
  exists v m', w_score m s c = Ok (Val v, m') /\
    (predicts (w_fst m) (wvocab m) (ng_unigram (wm_ng m)) s0 p total sy v \/
     (v = f0 /\ forall q, ~ predicts (w_fst m) (wvocab m) (ng_unigram (wm_ng m)) s0 p total sy q)).
Proof.
  intros F accept hi opt sg m l s s0 p total c sy0 SS I TM NZ HC.
  destruct (C36_predictions F accept hi opt sg m l s s0 p total SS I TM NZ) as [entries [m' [E [ND [IN _]]]]].
  unfold w_score. rewrite E. cbn [bind sc_entries].
  assert (SHAPE : forall sy q, predicts (w_fst m) (wvocab m) (ng_unigram (wm_ng m)) s0 p total sy q -> sym_code sy = c -> sy = sy0).
  { intros sy q P EC. destruct HC as [[HC ->]|[HC [-> N0]]].
    - destruct P; simpl in EC; subst; auto; lia.
    - destruct P as [p' c' v t X1 X2 X3| | |]; simpl in EC; subst; auto; try lia. exfalso.
      unfold begins in X2. apply existsb_exists in X2. destruct X2 as [w [X4 X5]]. apply in_map_iff in X4. destruct X4 as [[x w0] [W0 X4]]. cbn in W0. subst w0.
      apply (N0 _ _ X4). clear - X5. revert w X5. induction p' as [|y p' IH]; intros [|z w] H; cbn in H; try discriminate.
      + apply andb_prop in H. destruct H as [H _]. left. destruct z; try discriminate; reflexivity.
      + apply andb_prop in H. right. apply IH, H. }
  assert (CODE : sym_code sy0 = c) by (destruct HC as [[_ ->]|[-> [-> _]]]; reflexivity).
  destruct (find (fun e => sym_code (fst e) =? c) (map (fun '(c0, q) => (c0, Val q)) entries)) as [[sy v]|] eqn:FD.
  - apply find_some in FD. destruct FD as [FI FE]. apply in_map_iff in FI. destruct FI as [[sy' q] [X FI]].
    injection X as -> <-. cbn [fst] in FE. apply Z.eqb_eq in FE. apply IN in FI.
    exists q, m'. split; auto. left. rewrite <- (SHAPE _ _ FI FE). auto.
  - exists f0, m'. split; auto. right. split; auto. intros q P. apply IN in P.
    pose proof (find_none _ _ FD (sy0, Val q)) as X. cbn [fst] in X. rewrite CODE, Z.eqb_refl in X.
    discriminate X. apply in_map_iff. exists (sy0, q). auto.
Qed.
Print Assumptions C36_symbol_score.

(** Inside a word the model does not know, nothing is predicted. *)
Theorem C36_unknown_word : forall (F : ofield) accept hi opt sg (m : word F) l s,
  session accept hi opt sg m l -> In (s, Unknown) l ->
  w_extract m s = Ok (Some (LmScores (Val f0) []), m).
Proof.
  intros F accept hi opt sg m l s SS I. destruct (session_inv _ _ _ _ _ _ SS) as [ws [W [SR [PM [PL _]]]]].
  pose proof (PL _ _ I) as P. simpl in P. subst s. apply (oov_extract m ws). apply (wi_base _ _ W).
Qed.
Print Assumptions C36_unknown_word.

(** * C37: the order of the vocabulary *)
(** Positions 1, 2, ... hold the words in strictly increasing lexicographic order, each exactly once,
    and the table of positions is the inverse. *)
Theorem C37_lexicographic : forall (F : ofield) accept hi opt sg (m : word F) l,
  session accept hi opt sg m l ->
  exists ws : list str,
    StronglySorted str_lt ws /\ (forall w, In w ws <-> is_word (wvocab m) w) /\
    length ws = length (wvocab m) /\
    forall i w, nth_error ws i = Some w ->
      word_at m (Z.of_nat i + 1) = Ok w /\
      exists x, In (x, w) (wvocab m) /\ vgetZ (wm_order m) (Z.of_nat i + 1) = Ok x /\
                vgetZ (wm_pos m) x = Ok (Z.of_nat i + 1).
Proof.
  intros F accept hi opt sg m l SS. destruct (session_inv _ _ _ _ _ _ SS) as [ws [W [SR [PM [PL _]]]]].
  pose proof (wi_base _ _ W) as B. exists ws. split; auto. split; [apply (word_ws m ws B)|]. split.
  { apply Permutation_length in PM. rewrite PM, map_length. reflexivity. }
  intros i w Hi. pose proof (nth_error_Some_lt _ _ _ _ Hi) as L.
  assert (EW : wat ws (Z.of_nat i + 1) = w).
  { unfold wat. replace (Z.to_nat (Z.of_nat i + 1 - 1)) with i by lia. apply nth_error_nth. auto. }
  split.
  - rewrite (word_at_ok m ws (wb_loaded _ _ B) (wb_indexed _ _ B)) by lia. congruence.
  - exists (find_label (ng_syms (wm_ng m)) w). rewrite <- EW.
    split; [apply (word_label m ws B); apply wat_In; lia|]. split.
    + apply (ix_order _ _ (wb_indexed _ _ B)). lia.
    + apply (ix_pos _ _ (wb_indexed _ _ B)). lia.
Qed.
Print Assumptions C37_lexicographic.

(** * C38: the cache *)
Theorem C38_cache_bounded : forall (F : ofield) accept hi opt sg (m : word F) l,
  session accept hi opt sg m l ->
  Z.of_nat (length (wm_caches m)) <= (if hi <? opt then opt else 2000).
Proof.
  intros F accept hi opt sg m l SS. destruct (session_inv _ _ _ _ _ _ SS) as [ws [W [_ [_ [_ [MC _]]]]]].
  rewrite <- MC. apply (cv_max _ _ _ (wi_cache _ _ W)).
Qed.
Print Assumptions C38_cache_bounded.

(** Whatever was asked before, and whatever the cache sizes, the answer at a place is the same. *)
Theorem C38_cache_transparent : forall (F : ofield) accept hi opt accept' hi' opt' sg (m m' : word F) l l' s s' pl,
  session accept hi opt sg m l -> session accept' hi' opt' sg m' l' ->
  In (s, pl) l -> In (s', pl) l' ->
  exists r m1 m1', w_extract m s = Ok (r, m1) /\ w_extract m' s' = Ok (r, m1').
Proof.
  intros F accept hi opt accept' hi' opt' sg m m' l l' s s' pl SS SS' I I'.
  destruct (session_inv _ _ _ _ _ _ SS) as [ws [W [SR [PM [PL [_ NG]]]]]].
  destruct (session_inv _ _ _ _ _ _ SS') as [ws' [W' [SR' [PM' [PL' [_ NG']]]]]].
  assert (EN : wm_ng m = wm_ng m').
  { unfold ng_read in NG, NG'. destruct (st_model sg) as [[ff|]|]; try discriminate.
    apply bind_Ok in NG. destruct NG as [syms [E1 NG]]. apply bind_Ok in NG'. destruct NG' as [syms' [E1' NG']].
    apply bind_Ok in NG. destruct NG as [[b g] [E2 NG]]. apply bind_Ok in NG'. destruct NG' as [[b' g'] [E2' NG']].
    rewrite E1 in E1'. injection E1' as <-. rewrite E2 in E2'. injection E2' as <- <-.
    destruct (accept _ _); [|discriminate]. destruct (accept' _ _); [|discriminate]. congruence. }
  assert (EW : ws = ws').
  { apply sorted_unique; auto. eapply perm_trans; [exact PM|]. unfold wvocab in *. rewrite EN. apply Permutation_sym. auto. }
  subst ws'. destruct pl as [s0 p|].
  - destruct (extract_place m ws s s0 p W (PL _ _ I)) as [ps [sy [m1 [E [_ [_ [_ [_ [_ [_ [_ [b [e [ends [chars [R [G L]]]]]]]]]]]]]]]]].
    destruct (extract_place m' ws s' s0 p W' (PL' _ _ I')) as [ps' [sy' [m1' [E' [_ [_ [_ [_ [_ [_ [_ [b' [e' [ends' [chars' [R' [G' L']]]]]]]]]]]]]]]]].
    destruct (range_unique _ _ _ _ _ _ R R') as [-> ->].
    assert (X : ends = ends' /\ chars = chars') by (eapply (grp_fun (fun _ => @f0 F)); eauto).
    destruct X as [-> ->]. rewrite EN in L. rewrite <- L' in L. injection L as -> ->. rewrite E, E'. eauto.
  - pose proof (PL _ _ I) as P. pose proof (PL' _ _ I') as P'. simpl in P, P'. subst s s'.
    rewrite (oov_extract m ws (wi_base _ _ W)), (oov_extract m' ws (wi_base _ _ W')). eauto.
Qed.
Print Assumptions C38_cache_transparent.

(** * C53: unknown words *)
(** Once a word has gone astray the model stays in the unknown-word state until a space, which leads
    to the unigram state.  (Not so when already the first letter begins no word: WordProps2.v.) *)
Theorem C53_unknown_until_space : forall (F : ofield) accept hi opt sg (m : word F) l s c,
  session accept hi opt sg m l -> In (s, Unknown) l -> 0 <= c ->
  exists s' m', w_next_state m s c = Ok (s', m') /\
    session accept hi opt sg m' ((s', if c =? 32 then Typing (ng_unigram (wm_ng m)) [] else Unknown) :: l).
Proof.
  intros F accept hi opt sg m l s c SS I HC.
  destruct (C35_next_state F accept hi opt sg m l s Unknown c SS I HC) as [s' [m' [pl' [N [T SS']]]]].
  exists s', m'. split; auto. inversion T; subst.
  - destruct (Z.eqb_spec c 32); [contradiction|auto].
  - auto.
Qed.
Print Assumptions C53_unknown_until_space.

Theorem C53_astray_partial : forall (F : ofield) accept hi opt sg (m : word F) l s s0 p c,
  session accept hi opt sg m l -> In (s, Typing s0 p) l -> p <> [] -> 0 <= c -> c <> 32 ->
  begins (wvocab m) (p ++ [c]) = false ->
  exists s' m', w_next_state m s c = Ok (s', m') /\ session accept hi opt sg m' ((s', Unknown) :: l).
Proof.
  intros F accept hi opt sg m l s s0 p c SS I NP HC N32 NB.
  destruct (C35_next_state F accept hi opt sg m l s _ c SS I HC) as [s' [m' [pl' [N [T SS']]]]].
  exists s', m'. split; auto.
  replace Unknown with pl'; auto. eapply (C35_typing_is_determined F accept hi opt sg m l); eauto.
  apply type_astray; auto.
Qed.
Print Assumptions C53_astray_partial.
