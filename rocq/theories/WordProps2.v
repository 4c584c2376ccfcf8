(** The word n-gram model, continued: whole contexts, concrete sessions meeting the hypotheses, and
    the claims that are false of the code. *)
From Verif Require Import Base Field LmModel LmProofs HubModel HubSpec HubProofs HubTrie HubMix PpmModel
  NgramModel NgramSpec NgramProofs NgramProps NgramProps2 WordModel WordSpec WordLex WordIndex WordRange
  WordState WordNext WordCache WordScores WordPredict WordInit WordProps.
Local Open Scope Z_scope.

(** Typing a text. *)
Inductive types_text {F : ofield} (f : list (@pstate F)) vocab u : place -> list Z -> place -> Prop :=
| text_nil pl : types_text f vocab u pl [] pl
| text_cons pl c pl1 t pl2 : types f vocab u pl c pl1 -> types_text f vocab u pl1 t pl2 ->
    types_text f vocab u pl (c :: t) pl2.

Lemma next_core {F} (m : word F) ws s pl c s' m' : winv m ws -> place_of m ws s pl -> 0 <= c ->
  w_next_state m s c = Ok (s', m') -> w_fst m' = w_fst m /\ wvocab m' = wvocab m /\ wm_ng m' = wm_ng m.
Proof.
  intros W P HC N. destruct (next_ok m ws (wi_base _ _ W) s pl c P ltac:(lia)) as [s2 [im' [pl2 [N2 _]]]].
  rewrite N in N2. injection N2 as -> ->. auto.
Qed.

(** ContextState of any text, from any state handed out before, arrives where typing the text leads. *)
Theorem C35_context_walk : forall (F : ofield) accept hi opt sg (m : word F) l ctx s pl,
  session accept hi opt sg m l -> In (s, pl) l -> Forall (fun c => 0 <= c) ctx ->
  exists s' m' pl' l', context_state w_next_state (c_start word_ops m) m ctx s = Ok (s', m') /\
    types_text (w_fst m) (wvocab m) (ng_unigram (wm_ng m)) pl ctx pl' /\
    session accept hi opt sg m' l' /\ incl l l' /\ In (s', pl') l'.
Proof.
  intros F accept hi opt sg m l ctx s pl SS I FA. unfold context_state.
  assert (P0 : (s <? 0) = false).
  { destruct (session_inv _ _ _ _ _ _ SS) as [ws [W [_ [_ [PL _]]]]].
    pose proof (stands_valid _ _ _ (wb_im _ _ (wi_base _ _ W)) _ _ (PL _ _ I)). destruct (Z.ltb_spec s 0); [lia|auto]. }
  rewrite P0. clear P0. generalize (c_start word_ops m) as start. intros start.
  revert m l s pl SS I FA. induction ctx as [|c t IH]; intros m l s pl SS I FA.
  - exists s, m, pl, l. split; auto. split; [constructor|]. split; auto. split; auto. apply incl_refl.
  - inversion FA as [|? ? HC FA']; subst. cbn [context_loop].
    destruct (C35_next_state F accept hi opt sg m l s pl c SS I HC) as [s1 [m1 [pl1 [N [T SS1]]]]].
    destruct (session_inv _ _ _ _ _ _ SS) as [ws [W [_ [_ [PL _]]]]].
    destruct (next_core m ws s pl c s1 m1 W (PL _ _ I) HC N) as [E1 [E2 E3]].
    rewrite N. cbn [bind].
    assert (P1 : (s1 <? 0) = false).
    { destruct (session_inv _ _ _ _ _ _ SS1) as [ws1 [W1 [_ [_ [PL1 _]]]]].
      pose proof (stands_valid _ _ _ (wb_im _ _ (wi_base _ _ W1)) _ _ (PL1 _ _ (or_introl eq_refl))).
      destruct (Z.ltb_spec s1 0); [lia|auto]. }
    rewrite P1.
    destruct (IH m1 ((s1, pl1) :: l) s1 pl1 SS1 (or_introl eq_refl) FA') as [s' [m' [pl' [l' [A1 [A2 [A3 [A4 A5]]]]]]]].
    exists s', m', pl', l'. split; auto. rewrite E1, E2, E3 in A2.
    split; [econstructor; eauto|]. split; auto. split; auto. intros x J. apply A4. right. auto.
Qed.
Print Assumptions C35_context_walk.

(** C52 holds for the word model: the start state is that of the automaton in the file. *)
Theorem C52_word_model : forall (F : ofield) accept hi opt sg (m : word F) ff,
  w_read accept hi opt sg = Ok m -> st_model sg = Some (Some ff) ->
  context_state w_next_state (c_start word_ops m) m [] (-1) = Ok (ff_start ff, m).
Proof.
  intros F accept hi opt sg m ff R E. destruct (read_parts _ _ _ _ _ R) as [ng [m0 [E1 [E2 E3]]]].
  apply ensure_core in E3. destruct (core_fields _ _ E3) as [X _]. cbn [wm_ng] in X.
  assert (S : ng_start (wm_ng m) = ff_start ff).
  { rewrite X, (establish_ng _ _ E2). unfold ng_read in E1. rewrite E in E1.
    apply bind_Ok in E1. destruct E1 as [syms [_ E1]]. apply bind_Ok in E1. destruct E1 as [[b g] [_ E1]].
    destruct (accept _ _); [|discriminate]. injection E1 as <-. reflexivity. }
  unfold context_state. cbn [context_loop c_start word_ops]. rewrite S. reflexivity.
Qed.
Print Assumptions C52_word_model.

(** ** An executable check of [word_file_ok] *)
Definition word_file_okb {F : ofield} (m : word F) : bool :=
  let tab := ng_syms (wm_ng m) in
  table_okb tab
  && negb (Nat.eqb (length (wvocab m)) 0)
  && forallb (fun e => negb (existsb (Z.eqb 32) (snd e))) (wvocab m)
  && forallb (fun e => negb (str_eqb (snd e) [60; 117; 110; 107; 62]) || (fst e =? Z.of_nat (length tab) - 1)) tab
  && forallb (fun st => forallb (fun a => (a_label a =? 0) || existsb (Z.eqb (a_label a)) (map fst (tl tab))) (ps_arcs st))
             (ng_fst (wm_ng m))
  && ((ng_oov (wm_ng m) =? -1)
      || forallb (fun st => existsb (fun a => a_label a =? 0) (ps_arcs st) || negb (feqb (ps_final st) f0)) (ng_fst (wm_ng m))).
Lemma word_file_okb_sound {F : ofield} (m : word F) : word_file_okb m = true -> word_file_ok m.
Proof.
  unfold word_file_okb. intros H. do 5 (apply andb_prop in H; destruct H as [H ?]).
  constructor.
  - apply table_okb_sound. auto.
  - intros E. match goal with HF : negb (Nat.eqb _ 0) = true |- _ => rewrite E in HF; discriminate HF end.
  - intros x w I J.
    match goal with HF : forallb _ (wvocab m) = true |- _ => rewrite forallb_forall in HF; specialize (HF _ I); cbn [snd] in HF end.
    assert (X : existsb (Z.eqb 32) w = true) by (apply existsb_exists; exists 32; auto). rewrite X in *. discriminate.
  - intros x I.
    match goal with HF : forallb _ (ng_syms (wm_ng m)) = true |- _ => rewrite forallb_forall in HF; specialize (HF _ I); cbn [fst snd] in HF; rename HF into HX end.
    rewrite (proj2 (str_eqb_eq [60; 117; 110; 107; 62] [60; 117; 110; 107; 62]) eq_refl) in HX. cbn [negb orb] in HX. lia.
  - constructor.
    + intros s st a [Hs Hn] I. apply nth_error_In in Hn. apply filter_In in I. destruct I as [I J].
      match goal with HF : forallb (fun st => forallb _ (ps_arcs st)) _ = true |- _ =>
        rewrite forallb_forall in HF; specialize (HF _ Hn); rewrite forallb_forall in HF; specialize (HF _ I); rename HF into HX end.
      destruct (a_label a =? 0); [discriminate|]. cbn [orb] in HX. apply existsb_exists in HX.
      destruct HX as [y [Y1 Y2]]. apply Z.eqb_eq in Y2. rewrite Y2. auto.
    + match goal with HF : _ || forallb _ _ = true |- _ => apply orb_prop in HF; destruct HF as [HF|HF]; rename HF into HX end.
      * left. lia.
      * right. intros s st [Hs Hn] NA E. apply nth_error_In in Hn. rewrite forallb_forall in HX. specialize (HX _ Hn).
        apply orb_prop in HX. destruct HX as [HX|HX].
        -- apply existsb_exists in HX. destruct HX as [[l g b] [Y1 Y2]]. simpl in Y2. apply Z.eqb_eq in Y2. subst l.
           apply (NA _ _ Y1).
        -- apply feqb_eq in E. rewrite E in HX. discriminate.
Qed.

(** Reading and then one more computation on the model read. *)
Lemma read_session {F : ofield} accept hi opt sg (P : word F -> bool) :
  checks_model accept -> 0 <= hi ->
  match w_read accept hi opt sg with Ok m => word_file_okb m && P m | _ => false end = true ->
  exists m, session accept hi opt sg m [(ng_start (wm_ng m), Typing (ng_start (wm_ng m)) [])] /\
            w_read accept hi opt sg = Ok m /\ P m = true.
Proof.
  intros CH HI H. destruct (w_read accept hi opt sg) as [m| | |] eqn:E; try discriminate.
  apply andb_prop in H. destruct H as [H1 H2]. exists m. split; auto. apply session_read; auto.
  apply word_file_okb_sound. auto.
Qed.

(** ** The trigram model of ngram_word_fst_model_test.cc:55-190 (words aa ab ba bbb, labels 1-4) *)
Definition tri_word_states : list (@pstate Qc_field) :=
  [ PState [Arc 1 (q 1 5) 2; Arc 2 (q 1 5) 3; Arc 3 (q 1 5) 4; Arc 4 (q 1 5) 5] (q 1 5);   (* unigram *)
    PState [Arc 0 (q 5 12) 0; Arc 1 (q 2 3) 6] (q 0 1);                                      (* <S> *)
    PState [Arc 0 (q 5 9) 0; Arc 2 (q 1 3) 7; Arc 3 (q 1 3) 8] (q 0 1);                      (* aa *)
    PState [Arc 0 (q 5 9) 0; Arc 3 (q 1 3) 9; Arc 4 (q 1 3) 10] (q 0 1);                     (* ab *)
    PState [Arc 0 (q 5 9) 0; Arc 2 (q 1 3) 11; Arc 4 (q 1 3) 12] (q 0 1);                    (* ba *)
    PState [Arc 0 (q 5 12) 0] (q 2 3);                                                       (* bbb *)
    PState [Arc 0 (q 1 1) 2; Arc 2 (q 1 3) 7; Arc 3 (q 1 3) 8] (q 0 1);                      (* <S> aa *)
    PState [Arc 0 (q 3 4) 3; Arc 3 (q 1 2) 9] (q 0 1);                                       (* aa ab *)
    PState [Arc 0 (q 3 4) 4; Arc 2 (q 1 2) 11] (q 0 1);                                      (* aa ba *)
    PState [Arc 0 (q 3 4) 4; Arc 4 (q 1 2) 12] (q 0 1);                                      (* ab ba *)
    PState [Arc 0 (q 3 2) 5] (q 1 2);                                                        (* ab bbb *)
    PState [Arc 0 (q 3 4) 3; Arc 4 (q 1 2) 10] (q 0 1);                                      (* ba ab *)
    PState [Arc 0 (q 3 2) 5] (q 1 2) ].                                                      (* ba bbb *)
Definition tri_word_syms : list (Z * str) :=
  [(0, [101; 112; 115]); (1, [97; 97]); (2, [97; 98]); (3, [98; 97]); (4, [98; 98; 98])].
Definition tri_word_storage := Storage (Some (Some (FstFile tri_word_states 1 (Some tri_word_syms)))) None.
Definition tri_word : outcome (word Qc_field) := w_read check_fst 3 0 tri_word_storage.

Example tri_word_session : exists m,
  session check_fst 3 0 tri_word_storage m [(ng_start (wm_ng m), Typing (ng_start (wm_ng m)) [])].
Proof.
  destruct (read_session check_fst 3 0 tri_word_storage (fun _ => true)) as [m [S _]].
  - apply check_fst_sound.
  - lia.
  - vmr.
  - exists m. exact S.
Qed.

Definition ctx_scores (ctx : list Z) :=
  let* m := tri_word in
  let* (s, m') := context_state w_next_state (c_start word_ops m) m ctx (-1) in
  let* (r, _) := w_extract m' s in Ok r.
Example C36_example0 : ctx_scores [] =
  Ok (Some (LmScores (Val (q 1 1)) [([], Val (q 1 12)); ([97], Val (q 3 4)); ([98], Val (q 1 6))])).
Proof. vmr. Qed.
Example C36_example1 : ctx_scores [97;97;32;98;98] = Ok (Some (LmScores (Val (q 1 1)) [([98], Val (q 1 1))])).
Proof. vmr. Qed.
Example C36_example2 : ctx_scores [97;97;32;98;97] =
  Ok (Some (LmScores (Val (q 1 1)) [([32], Val (q 11 12)); ([], Val (q 1 12))])).
Proof. vmr. Qed.

(** A cache of one entry more than the order, with many evictions, gives the same answers. *)
Definition after_noise (opt : Z) (noise : list (list Z)) (ctx : list Z) :=
  let* m := w_read check_fst 1 opt tri_word_storage in
  let* m1 := fold_left (fun acc c =>
       let* m' := acc in
       let* (s, m2) := context_state w_next_state (c_start word_ops m') m' c (-1) in
       let* (_, m3) := w_extract m2 s in Ok m3) noise (Ok m) in
  let* (s, m') := context_state w_next_state (c_start word_ops m1) m1 ctx (-1) in
  let* (r, m2) := w_extract m' s in Ok (r, length (wm_caches m2)).
Example C38_example :
  after_noise 2 [[97;97;32]; [97;98;32]; [98;97;32]; [98;98;98;32]; [97;97;32;97;98;32]; [98]] [97;97;32;98;97] =
  Ok (Some (LmScores (Val (q 1 1)) [([32], Val (q 11 12)); ([], Val (q 1 12))]), 2%nat).
Proof. vmr. Qed.

(** * What is false of the code *)

(** C36: when the words that continue the prefix have no probability in the model (a symbol without
    arcs), the scores are not numbers. *)
Definition dead_word_storage : storage Qc_field :=
  Storage (Some (Some (FstFile [PState [Arc 1 (q 1 2) 0] (q 1 2)] 0
                               (Some [(0, [949]); (1, [97]); (2, [98; 98])])))) None.
Theorem C36_zero_mass_refuted :
  exists (m : word Qc_field) s m' m2,
    session check_fst 1 0 dead_word_storage m [(ng_start (wm_ng m), Typing (ng_start (wm_ng m)) [])] /\
    w_next_state m (ng_start (wm_ng m)) 98 = Ok (s, m') /\
    w_extract m' s = Ok (Some (LmScores (Val f1) [([98], NaN)]), m2).
Proof.
  destruct (read_session check_fst 1 0 dead_word_storage (fun m =>
    match (let* (s, m') := w_next_state m (ng_start (wm_ng m)) 98 in w_extract m' s) with
    | Ok (Some (LmScores (Val n) [(k, NaN)]), _) => feqb n f1 && str_eqb k [98]
    | _ => false end)) as [m [S [_ P]]].
  - apply check_fst_sound.
  - lia.
  - vmr.
  - destruct (w_next_state m (ng_start (wm_ng m)) 98) as [[s m']| | |] eqn:N; try discriminate. cbn [bind] in P.
    exists m, s, m'. destruct (w_extract m' s) as [[[[[n|] es]|] m2]| | |]; try discriminate.
    exists m2. split; auto. split; auto.
    destruct es as [|[k [v|]] [|? ?]]; try discriminate.
    apply andb_prop in P. destruct P as [P1 P2]. apply feqb_eq in P1. apply str_eqb_eq in P2. rewrite P1, P2. reflexivity.
Qed.
Print Assumptions C36_zero_mass_refuted.

(** Every call of [f] made by a computed check. *)
Lemma ok_of {A} (x : outcome A) (P : A -> bool) : match x with Ok a => P a | _ => false end = true ->
  exists a, x = Ok a /\ P a = true.
Proof. destruct x; try discriminate. eauto. Qed.

(** C37: with the unknown-word symbol anywhere but at the end of the symbol table, the order is
    damaged: a word of the vocabulary has no position any more, and typing it and a space leads to
    the context of another word.  (Words a, b; labels <unk> = 1, a = 2, b = 3; states 1 and 2 are the
    contexts after a and b.) *)
Definition unk_mid_syms : list (Z * str) := [(0, [949]); (1, unk_symbol); (2, [97]); (3, [98])].
Definition unk_mid_states : list (@pstate Qc_field) :=
  [ PState [Arc 2 (q 1 4) 1; Arc 3 (q 1 4) 2] (q 1 2);
    PState [Arc 0 (q 2 1) 0; Arc 2 (q 1 4) 1] (q 1 4);
    PState [Arc 0 (q 2 1) 0; Arc 3 (q 1 4) 2] (q 1 4) ].
Definition unk_mid_storage := Storage (Some (Some (FstFile unk_mid_states 0 (Some unk_mid_syms)))) None.
Theorem C37_unk_not_last_refuted :
  exists m : word Qc_field,
    w_read check_fst 2 0 unk_mid_storage = Ok m /\ table_ok (ng_syms (wm_ng m)) /\ arcs_ok (wm_ng m) /\
    is_word (wvocab m) [97] /\ (forall i, word_at m i <> Ok [97]) /\
    symbol_dest (w_fst m) 2 0 (Some 1) /\
    exists m', context_state w_next_state (c_start word_ops m) m [97; 32] (-1) = Ok (2, m').
Proof.
  destruct (ok_of (w_read check_fst 2 0 unk_mid_storage) (fun m =>
     table_okb (ng_syms (wm_ng m)) && existsb (str_eqb [97]) (map snd (wvocab m)) &&
     forallb (fun l => negb (str_eqb (find_symbol (ng_syms (wm_ng m)) l) [97])) (wm_order m) &&
     match context_state w_next_state (c_start word_ops m) m [97; 32] (-1) with Ok (s, _) => s =? 2 | _ => false end &&
     match w_fst m with PState (Arc 2 _ 1 :: _) _ :: _ => true | _ => false end &&
     forallb (fun st => forallb (fun a => (a_label a =? 0) || existsb (Z.eqb (a_label a)) (map fst (tl (ng_syms (wm_ng m))))) (ps_arcs st)) (w_fst m) &&
     forallb (fun st => existsb (fun a => a_label a =? 0) (ps_arcs st) || negb (feqb (ps_final st) f0)) (w_fst m)))
    as [m [R P]]; [vmr|].
  exists m. split; [exact R|]. clear R. do 6 (apply andb_prop in P; destruct P as [P ?]).
  split; [apply table_okb_sound; auto|].
  split.
  { constructor.
    - intros s st a [Hs Hn] I. apply nth_error_In in Hn. apply filter_In in I. destruct I as [I J].
      match goal with HF : forallb (fun st => forallb _ (ps_arcs st)) _ = true |- _ =>
        rewrite forallb_forall in HF; specialize (HF _ Hn); rewrite forallb_forall in HF; specialize (HF _ I); rename HF into HX end.
      destruct (a_label a =? 0); [discriminate|]. cbn [orb] in HX. apply existsb_exists in HX.
      destruct HX as [y [Y1 Y2]]. apply Z.eqb_eq in Y2. rewrite Y2. auto.
    - right. intros s st [Hs Hn] NA E. apply nth_error_In in Hn.
      match goal with HF : forallb (fun st => _ || _) (w_fst m) = true |- _ => rewrite forallb_forall in HF; specialize (HF _ Hn); rename HF into HX end.
      apply orb_prop in HX. destruct HX as [HX|HX].
      + apply existsb_exists in HX. destruct HX as [[l g b] [Y1 Y2]]. simpl in Y2. apply Z.eqb_eq in Y2. subst l.
        apply (NA _ _ Y1).
      + apply feqb_eq in E. rewrite E in HX. discriminate. }
  split.
  { match goal with HF : existsb _ _ = true |- _ => apply existsb_exists in HF; destruct HF as [w [I J]] end.
    apply str_eqb_eq in J. rewrite J. exact I. }
  split.
  { intros i E. unfold word_at in E. apply bind_Ok in E. destruct E as [l [E1 E2]]. injection E2 as E2.
    match goal with HF : forallb _ (wm_order m) = true |- _ => rewrite forallb_forall in HF; rename HF into HX end.
    assert (I : In l (wm_order m)).
    { unfold vgetZ, vget in E1. destruct (i <? 0); [discriminate|].
      destruct (nth_error (wm_order m) (Z.to_nat i)) eqn:N; try discriminate. injection E1 as <-. eapply nth_error_In; eauto. }
    specialize (HX _ I). rewrite E2 in HX. discriminate. }
  split.
  { unfold w_fst in *. destruct (ng_fst (wm_ng m)) as [|[arcs fin] t] eqn:E; [discriminate|].
    destruct arcs as [|[l g d] arcs]; [discriminate|].
    assert (X : l = 2 /\ d = 1).
    { destruct l as [|[[l|l|]|[l|l|]|]|l]; try discriminate; destruct d as [|[d|d|]|d]; try discriminate; auto. }
    destruct X as [-> ->]. eapply dest_here with (st := PState (Arc 2 g 1 :: arcs) fin).
    - split; [lia|reflexivity].
    - left. reflexivity. }
  destruct (context_state w_next_state (c_start word_ops m) m [97; 32] (-1)) as [[s m']| | |]; try discriminate.
  exists m'. match goal with HF : (s =? 2) = true |- _ => apply Z.eqb_eq in HF; rewrite HF end. reflexivity.
Qed.
Print Assumptions C37_unk_not_last_refuted.

(** C53: a word whose first letter already begins no word is forgotten at once: the letters after it
    are taken as the beginning of a word.  After "z" the model predicts the word "aa", as after
    nothing. *)
Theorem C53_unknown_first_letter_refuted :
  exists (m : word Qc_field) s m' r m2,
    session check_fst 3 0 tri_word_storage m [(ng_start (wm_ng m), Typing (ng_start (wm_ng m)) [])] /\
    begins (wvocab m) [122] = false /\
    context_state w_next_state (c_start word_ops m) m [122; 97] (-1) = Ok (s, m') /\
    w_extract m' s = Ok (Some r, m2) /\ map fst (sc_entries r) = [[97]; [98]].
Proof.
  destruct (read_session check_fst 3 0 tri_word_storage (fun m =>
    negb (begins (wvocab m) [122]) &&
    match (let* (s, m') := context_state w_next_state (c_start word_ops m) m [122; 97] (-1) in w_extract m' s) with
    | Ok (Some r, _) => if list_eq_dec (list_eq_dec Z.eq_dec) (map fst (sc_entries r)) [[97]; [98]] then true else false
    | _ => false end)) as [m [S [_ P]]].
  - apply check_fst_sound.
  - lia.
  - vmr.
  - apply andb_prop in P. destruct P as [P1 P2].
    destruct (context_state w_next_state (c_start word_ops m) m [122; 97] (-1)) as [[s m']| | |] eqn:N; try discriminate.
    cbn [bind] in P2. destruct (w_extract m' s) as [[[r|] m2]| | |] eqn:E; try discriminate.
    exists m, s, m', r, m2. split; auto. split; [destruct (begins _ _); auto; discriminate|]. split; auto. split; auto.
    destruct (list_eq_dec _ _ _); [auto|discriminate].
Qed.
Print Assumptions C53_unknown_first_letter_refuted.

(** C54: NextState takes the state -1 for a state at the beginning of a word and hands out a state
    that ExtractLMScores cannot be called on. *)
Theorem C54_state_minus_one_refuted :
  exists (m : word Qc_field) s m',
    session check_fst 3 0 tri_word_storage m [(ng_start (wm_ng m), Typing (ng_start (wm_ng m)) [])] /\
    w_next_state m (-1) 97 = Ok (s, m') /\ 0 <= s /\ w_extract m' s = UB.
Proof.
  destruct (read_session check_fst 3 0 tri_word_storage (fun m =>
    match w_next_state m (-1) 97 with
    | Ok (s, m') => (0 <=? s) && match w_extract m' s with UB => true | _ => false end
    | _ => false end)) as [m [S [_ P]]].
  - apply check_fst_sound.
  - lia.
  - vmr.
  - destruct (w_next_state m (-1) 97) as [[s m']| | |] eqn:N; try discriminate.
    apply andb_prop in P. destruct P as [P1 P2]. exists m, s, m'. split; auto. split; auto. split; [lia|].
    destruct (w_extract m' s); try discriminate. reflexivity.
Qed.
Print Assumptions C54_state_minus_one_refuted.

(** Every state handed out since the model was read can be asked about and typed from. *)
Theorem C54_states_usable_partial : forall (F : ofield) accept hi opt sg (m : word F) l s pl,
  session accept hi opt sg m l -> In (s, pl) l ->
  (exists r m', w_extract m s = Ok (r, m') /\ session accept hi opt sg m' l) /\
  (forall c, exists p m', w_score m s c = Ok (p, m') /\ session accept hi opt sg m' l) /\
  (forall c, 0 <= c -> exists s' m', 0 <= s' /\ w_next_state m s c = Ok (s', m')).
Proof.
  intros F accept hi opt sg m l s pl SS I.
  destruct (session_inv _ _ _ _ _ _ SS) as [ws [W [_ [_ [PL _]]]]].
  destruct (extract_total m ws s pl W (PL _ _ I)) as [r [m' [E _]]].
  split; [|split].
  - exists r, m'. split; auto. eapply session_scores; eauto.
  - intros c. assert (X : exists p, w_score m s c = Ok (p, m')).
    { unfold w_score. rewrite E. cbn [bind]. eexists. reflexivity. }
    destruct X as [p X]. exists p, m'. split; auto. eapply session_score; eauto.
  - intros c HC. destruct (C35_next_state F accept hi opt sg m l s pl c SS I HC) as [s1 [m1 [pl1 [N [_ SS1]]]]].
    exists s1, m1. split; auto.
    destruct (session_inv _ _ _ _ _ _ SS1) as [ws1 [W1 [_ [_ [PL1 _]]]]].
    apply (stands_valid _ _ _ (wb_im _ _ (wi_base _ _ W1)) _ _ (PL1 _ _ (or_introl eq_refl))).
Qed.
Print Assumptions C54_states_usable_partial.
